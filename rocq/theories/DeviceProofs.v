(** Voxelization as a whole: what the tracking grids hold after ray casting, on the
    CPU and in device memory, and what the filter makes of it. *)
From Coq Require Import ZArith Reals List Lia Bool ZifyBool Permutation.
From Flocq Require Import Core BinarySingleNaN.
From Verif Require Import Util Grid Prog Schedule FloatModel Occ RaycastModel RaycastSpec
  RaycastProofs FilterModel FilterSpec FilterFloatProofs FilterProofs.
Import ListNotations.
Local Open Scope Z_scope.

(** ** Increments of flat memory *)

Definition times (a : Z) (l : list Z) : Z := zlen (filter (Z.eqb a) l).

Lemma times_app a l1 l2 : times a (l1 ++ l2) = times a l1 + times a l2.
Proof. unfold times, zlen. rewrite filter_app, app_length. lia. Qed.

Lemma times_cons a b l : times a (b :: l) = (if a =? b then 1 else 0) + times a l.
Proof. unfold times, zlen. cbn [filter]. destruct (a =? b); cbn [length]; lia. Qed.

Lemma times_absent a l : ~ In a l -> times a l = 0.
Proof.
  induction l as [|b l IH]; intros H; [easy|]. rewrite times_cons.
  destruct (Z.eqb_spec a b) as [->|Hne]; [exfalso; apply H; now left|].
  rewrite IH; [easy|]. intros Hl. apply H. now right.
Qed.

Definition after (items : list (list Z)) (mem : list Z) (a : Z) : option Z :=
  option_map (fun v => wrap32 (v + times a (concat items))) (zget mem a).

Lemma dstep_after ws mem ws' mem' : dstep (ws, mem) (ws', mem') ->
  zlen mem' = zlen mem /\ forall a, after ws' mem' a = after ws mem a.
Proof.
  intros H. inversion H as [l1 a w l2 m m' E Ea Eb]; subst. unfold dev_bump in E.
  destruct (zget mem a) as [v|] eqn:Ev; [|easy]. cbn [obind] in E.
  split; [eapply zset_length; eauto|]. intros b. unfold after.
  rewrite (zget_zset _ _ _ _ b E). rewrite !concat_app. cbn [concat].
  rewrite !times_app, times_cons.
  destruct (Z.eqb_spec b a) as [->|Hne].
  - rewrite Ev. cbn [option_map]. f_equal. rewrite wrap32_add_wrap. f_equal. lia.
  - replace (a =? b) with false by lia. rewrite ?Z.add_0_l.
    destruct (zget mem b); cbn [option_map]; f_equal.
Qed.

Lemma dsteps_after s s' : dsteps s s' ->
  zlen (snd s') = zlen (snd s) /\ forall a, after (fst s') (snd s') a = after (fst s) (snd s) a.
Proof.
  induction 1 as [s|[w1 m1] [w2 m2] s3 H _ (L & A)]; [easy|].
  destruct (dstep_after _ _ _ _ H) as (L1 & A1). cbn [fst snd] in *.
  split; [lia|]. intros a. now rewrite A, A1.
Qed.

Lemma dsteps_range s s' : dsteps s s' ->
  (forall a v, zget (snd s) a = Some v -> wrap32 v = v) ->
  forall a v, zget (snd s') a = Some v -> wrap32 v = v.
Proof.
  induction 1 as [s|[w1 m1] [w2 m2] s3 H _ IH]; [easy|]. intros Hr. apply IH. cbn [snd] in *.
  inversion H as [l1 a w l2 m m' E Ea Eb]; subst. unfold dev_bump in E.
  destruct (zget m1 a) as [v|] eqn:Ev; [|easy]. cbn [obind] in E.
  intros b u Hb. rewrite (zget_zset _ _ _ _ b E) in Hb. destruct (b =? a).
  - assert (u = wrap32 (v + 1)) as -> by congruence. apply wrap32_idem.
  - eapply Hr; eauto.
Qed.

Lemma dsteps_trans s1 s2 s3 : dsteps s1 s2 -> dsteps s2 s3 -> dsteps s1 s3.
Proof. induction 1; [easy|]. intros. econstructor; eauto. Qed.

(** The increments can always be completed. *)
Lemma dsteps_complete : forall n ws mem, (length (concat ws) < n)%nat ->
  (forall a, In a (concat ws) -> 0 <= a < zlen mem) ->
  exists ws' mem', dsteps (ws, mem) (ws', mem') /\ Forall (fun w => w = []) ws'.
Proof.
  induction n as [|n IH]; intros ws mem Hn Hin; [lia|].
  assert (Hc : Forall (fun w : list Z => w = []) ws \/ exists l1 a w l2, ws = l1 ++ (a :: w) :: l2).
  { clear. induction ws as [|[|a w] ws IH]; [left; constructor| |].
    - destruct IH as [H|(l1 & a & w & l2 & ->)]; [left; now constructor|].
      right. now exists ([] :: l1), a, w, l2.
    - right. now exists [], a, w, ws. }
  destruct Hc as [Hc|(l1 & a & w & l2 & ->)].
  { exists ws, mem. split; [constructor|easy]. }
  rewrite concat_app in Hn, Hin. cbn [concat] in Hn, Hin.
  assert (Ha : 0 <= a < zlen mem) by (apply Hin, in_or_app; right; now left).
  destruct (proj2 (zget_some_iff mem a) Ha) as (v & Ev).
  destruct (zset_some mem a (wrap32 (v + 1)) Ha) as (m1 & E1).
  destruct (IH (l1 ++ w :: l2) m1) as (ws' & m' & Hs & Hd).
  - rewrite concat_app. cbn [concat]. rewrite app_length in *. cbn [length app] in Hn. lia.
  - rewrite (zset_length _ _ _ _ E1). intros b Hb. apply Hin. rewrite concat_app in Hb. cbn [concat] in Hb.
    apply in_app_or in Hb. apply in_or_app. destruct Hb as [Hb|Hb]; [now left|right; now right].
  - exists ws', m'. split; [|easy]. econstructor; [|exact Hs]. constructor. unfold dev_bump. now rewrite Ev.
Qed.

(** ** Addresses *)

(** Where counter [b] of grid [k] lives. *)
Definition place (ny nz cells k : Z) (b : bump) : Z :=
  2 * (cells * k + data_index3 ny nz (fst b)) + (if snd b then 1 else 0).

Lemma place_range nx ny nz k b : 0 <= k -> in_bounds3 nx ny nz (fst b) = true ->
  2 * (nx * ny * nz * k) <= place ny nz (nx * ny * nz) k b < 2 * (nx * ny * nz * (k + 1)).
Proof.
  intros Hk Hb. pose proof (data_index3_range _ _ _ _ Hb). unfold place. destruct (snd b); lia.
Qed.

Lemma place_inj nx ny nz k b k' b' : 0 <= k -> 0 <= k' ->
  in_bounds3 nx ny nz (fst b) = true -> in_bounds3 nx ny nz (fst b') = true ->
  place ny nz (nx * ny * nz) k b = place ny nz (nx * ny * nz) k' b' -> k = k' /\ b = b'.
Proof.
  intros Hk Hk' Hb Hb' E. pose proof (data_index3_range _ _ _ _ Hb) as R.
  pose proof (data_index3_range _ _ _ _ Hb') as R'.
  unfold place in E. set (c := nx * ny * nz) in *. destruct b as [i s], b' as [j q]. cbn [fst snd] in *.
  assert (s = q) as -> by (destruct s, q; lia).
  assert (Hd : c * k + data_index3 ny nz i = c * k' + data_index3 ny nz j) by (destruct q; lia).
  assert (Hkk : k = k').
  { clear - Hd R R'. set (d := data_index3 ny nz i) in *. set (d' := data_index3 ny nz j) in *.
    clearbody d d' c. nia. }
  subst k'. split; [easy|]. f_equal. apply (data_index3_inj nx ny nz); auto. lia.
Qed.

Lemma dev_data_index_ok nx ny nz i : in_bounds3 nx ny nz i = true -> nx * ny * nz < 2 ^ 31 ->
  dev_data_index ny nz i = Some (data_index3 ny nz i).
Proof.
  intros Hi Hsz. destruct i as [[x y] z]. pose proof (data_index3_range _ _ _ _ Hi) as Hr.
  rewrite in_bounds3_iff in Hi. unfold dev_data_index, data_index3 in *. unfold ix, iy, iz in *. cbn [fst snd] in *.
  destruct Hi as (Hx & Hy & Hz).
  assert (H1 : 0 <= ny * nz <= nx * (ny * nz)) by nia.
  assert (H2 : 0 <= x * (ny * nz) <= nx * (ny * nz)) by nia.
  assert (H3 : 0 <= y * nz <= ny * nz) by nia.
  rewrite Z.mul_add_distr_r, <- Z.mul_assoc in Hr |- *. rewrite <- Z.mul_assoc in Hr, Hsz.
  rewrite chk32_some by lia. cbn [obind]. rewrite chk32_some by lia. cbn [obind].
  rewrite chk32_some by lia. cbn [obind]. rewrite chk32_some by lia. cbn [obind].
  apply chk32_some. lia.
Qed.

Definition address_ok (address : Z -> Z -> Z -> Z -> bump -> option Z) (nx ny nz grids : Z) : Prop :=
  forall k b, 0 <= k < grids -> in_bounds3 nx ny nz (fst b) = true ->
    address ny nz (nx * ny * nz) k b = Some (place ny nz (nx * ny * nz) k b).

Lemma cuda_address_ok nx ny nz grids : 2 * (nx * ny * nz) <= 2 ^ 31 -> address_ok cuda_address nx ny nz grids.
Proof.
  intros Hsz k b Hk Hb. unfold cuda_address, place.
  pose proof (data_index3_range _ _ _ _ Hb).
  rewrite (dev_data_index_ok nx) by (auto; lia). cbn [obind].
  rewrite chk32_some by lia. cbn [obind]. rewrite chk32_some by (destruct (snd b); lia). cbn [obind].
  f_equal. lia.
Qed.

Lemma opencl_address_ok nx ny nz grids : 2 * (nx * ny * nz * grids) <= 2 ^ 31 ->
  address_ok opencl_address nx ny nz grids.
Proof.
  intros Hsz k b Hk Hb. unfold opencl_address, place.
  pose proof (data_index3_range _ _ _ _ Hb) as Hr.
  set (c := nx * ny * nz) in *.
  assert (Hck : 0 <= c * k /\ c * k + c <= c * grids) by nia.
  rewrite (dev_data_index_ok nx) by (auto; fold c; lia). cbn [obind].
  rewrite chk32_some by lia. cbn [obind]. rewrite wrap32_id by lia.
  rewrite chk32_some by lia. cbn [obind]. rewrite chk32_some by (destruct (snd b); lia). f_equal. lia.
Qed.

(** ** The work items of the device *)

Lemma addresses_ok addr f bs : (forall b, In b bs -> addr b = Some (f b)) ->
  addresses addr bs = Some (map f bs).
Proof.
  induction bs as [|b bs IH]; intros H; [easy|]. cbn [addresses map].
  rewrite H by now left. cbn [obind]. rewrite IH; [easy|]. intros c Hc. apply H. now right.
Qed.

Lemma point_items_ok A rg addr f c ks : forall w,
  thread_work A rg c ks = Some w -> (forall b, In b w -> addr b = Some (f b)) ->
  exists items, point_items A rg addr c ks = Some items /\ concat items = map f w.
Proof.
  induction ks as [|k ks IH]; intros w E H; cbn [thread_work] in E.
  { assert (w = []) as -> by congruence. now exists []. }
  destruct (point_work A rg c k) as [bs|] eqn:Ek; [|easy]. cbn [obind] in E.
  destruct (thread_work A rg c ks) as [r|] eqn:Er; [|easy]. cbn [obind] in E.
  assert (w = bs ++ r) as -> by congruence.
  destruct (IH r eq_refl) as (items & Ei & Ec); [intros b Hb; apply H, in_or_app; now right|].
  exists (map f bs :: items). cbn [point_items]. rewrite Ek. cbn [obind].
  rewrite (addresses_ok addr f bs) by (intros b Hb; apply H, in_or_app; now left). cbn [obind].
  rewrite Ei. cbn [obind concat]. split; [easy|]. now rewrite Ec, map_app.
Qed.

Lemma times_map (f : bump -> Z) b l :
  (forall x, In x l -> f x = f b -> x = b) -> times (f b) (map f l) = occurs b l.
Proof.
  induction l as [|x l IH]; intros H; [easy|]. cbn [map]. rewrite times_cons, occurs_cons, IH.
  - f_equal. destruct (bump_eqb b x) eqn:E.
    + apply bump_eqb_eq in E. subst x. now rewrite Z.eqb_refl.
    + destruct (Z.eqb_spec (f b) (f x)) as [Ef|]; [|easy].
      assert (x = b) as -> by (apply H; [now left|easy]).
      exfalso. rewrite (proj2 (bump_eqb_eq b b) eq_refl) in E. easy.
  - intros y Hy. apply H. now right.
Qed.

Section Items.
Variable A : ray_arith.
Variable rg : ray_grid A.
Variable address : Z -> bump -> option Z.
Let nx := rg_nx A rg. Let ny := rg_ny A rg. Let nz := rg_nz A rg. Let cells := nx * ny * nz.

Lemma cloud_items_ok cs : forall k0, 0 <= k0 ->
  (forall k b, k0 <= k < k0 + zlen cs -> in_bounds3 nx ny nz (fst b) = true ->
     address k b = Some (place ny nz cells k b)) ->
  exists items, cloud_items A rg address k0 cs = Some items /\
    (forall a, In a (concat items) -> exists k b, k0 <= k < k0 + zlen cs /\
       in_bounds3 nx ny nz (fst b) = true /\ a = place ny nz cells k b) /\
    forall j c b, zget cs j = Some c -> in_bounds3 nx ny nz (fst b) = true ->
      times (place ny nz cells (k0 + j) b) (concat items) = points_counting A rg c b.
Proof using.
  induction cs as [|c cs IH]; intros k0 Hk0 Ha.
  { exists []. split; [easy|]. split; [easy|]. intros j c b E. unfold zget in E.
    destruct (j <? 0); [easy|]. now destruct (Z.to_nat j). }
  assert (Hlen : zlen (c :: cs) = 1 + zlen cs) by (unfold zlen; cbn [length]; lia).
  pose proof (zlen_nonneg cs) as Hcs. rewrite Hlen in *.
  destruct (thread_work_some A rg c (zrange 0 (zlen (c_points A c)))) as (w & Ew & Hin & Ho).
  { intros k Hk. now apply in_zrange in Hk. }
  destruct (point_items_ok A rg (address k0) (place ny nz cells k0) c _ w Ew) as (it & Ei & Ec).
  { intros b Hb. apply Ha; [lia|]. apply (Hin b Hb). }
  destruct (IH (k0 + 1)) as (rest & Er & Hr & Ht); [lia|intros k b Hk; apply Ha; lia|].
  exists (it ++ rest). cbn [cloud_items]. rewrite Ei. cbn [obind]. rewrite Er. cbn [obind].
  split; [easy|]. rewrite concat_app, Ec. split.
  - intros a Hin'. apply in_app_or in Hin'. destruct Hin' as [H|H].
    + apply in_map_iff in H. destruct H as (b & <- & Hb). exists k0, b.
      split; [lia|]. split; [apply (Hin b Hb)|easy].
    + destruct (Hr a H) as (k & b & Hk & Hb & ->). exists k, b. split; [lia|easy].
  - intros j d b Ej Hb. rewrite times_app.
    assert (Hj : 0 <= j < 1 + zlen cs) by (apply zget_range in Ej; lia).
    destruct (Z.eq_dec j 0) as [->|Hne].
    + assert (d = c) as -> by (unfold zget in Ej; cbn in Ej; congruence).
      rewrite Z.add_0_r, (times_absent _ (concat rest)).
      * rewrite times_map, Ho; [unfold points_counting; rewrite Z.add_0_r; reflexivity|].
        intros x Hx E. apply (place_inj nx ny nz k0 x k0 b Hk0 Hk0 (Hin x Hx) Hb E).
      * intros H. destruct (Hr _ H) as (k & b' & Hk & Hb' & E).
        destruct (place_inj nx ny nz k0 b k b' Hk0 ltac:(lia) Hb Hb' E) as (E1 & _). lia.
    + rewrite (times_absent _ (map _ w)).
      * specialize (Ht (j - 1) d b). replace (k0 + 1 + (j - 1)) with (k0 + j) in Ht by lia.
        rewrite Ht; [easy| |easy]. rewrite <- Ej. unfold zget.
        replace (j <? 0) with false by lia. replace (j - 1 <? 0) with false by lia.
        replace (Z.to_nat j) with (S (Z.to_nat (j - 1))) by lia. reflexivity.
      * intros H. apply in_map_iff in H. destruct H as (b' & E & Hb').
        destruct (place_inj nx ny nz k0 b' (k0 + j) b Hk0 ltac:(lia) (Hin b' Hb') Hb E) as (E1 & _). lia.
Qed.

End Items.

(** ** The tracking grids after ray casting *)

Lemma disjoint_filters {X} (f h : X -> bool) l :
  (forall x, In x l -> f x = true -> h x = true -> False) ->
  zlen (filter f l) + zlen (filter h l) <= zlen l.
Proof.
  unfold zlen. induction l as [|x l IH]; intros H; [easy|]. cbn [filter length].
  assert (IHl : Z.of_nat (length (filter f l)) + Z.of_nat (length (filter h l)) <= Z.of_nat (length l)).
  { apply IH. intros y Hy. apply H. now right. }
  pose proof (H x (or_introl eq_refl)) as Hx.
  destruct (f x), (h x); cbn [length]; lia.
Qed.

Lemma points_counting_nonneg A rg c b : 0 <= points_counting A rg c b.
Proof. apply zlen_nonneg. Qed.

(** A point counts towards at most one counter of a voxel. *)
Lemma points_counting_sum A rg c i :
  points_counting A rg c (i, false) + points_counting A rg c (i, true) <= zlen (c_points A c).
Proof.
  unfold points_counting. eapply Z.le_trans.
  - apply disjoint_filters. intros k Hk H1 H2. apply in_zrange in Hk.
    destruct (point_work_some A rg c k Hk) as (w & E & Hnd & _). rewrite E in H1, H2.
    apply existsb_exists in H1, H2. destruct H1 as (x & Hx & Ex), H2 as (y & Hy & Ey).
    apply bump_eqb_eq in Ex, Ey. subst x y.
    destruct (in_split _ _ Hx) as (l1 & l2 & ->). rewrite map_app in Hnd. cbn [map fst] in Hnd.
    apply NoDup_remove_2 in Hnd. apply Hnd. rewrite <- map_app.
    apply in_map_iff. exists (i, true). split; [easy|]. apply in_app_or in Hy. apply in_or_app.
    destruct Hy as [Hy|[Hy|Hy]]; [now left|congruence|now right].
  - rewrite zlen_zrange by apply zlen_nonneg. lia.
Qed.

Section Whole.
Variable A : ray_arith.
Variable rg : ray_grid A.

Definition track_of (c : cloud A) : tgrid :=
  gtab (rg_nx A rg) (rg_ny A rg) (rg_nz A rg)
    (fun i => (points_counting A rg c (i, false), points_counting A rg c (i, true))).

Variable g : grid occ.
Hypothesis Hg : map_for rg g.

Lemma Hdims : 0 < rg_nx A rg /\ 0 < rg_ny A rg /\ 0 < rg_nz A rg.
Proof using Hg. destruct Hg as ((Hx & Hy & Hz & _) & E1 & E2 & E3). lia. Qed.

Lemma gget_track c i : in_bounds g i = true ->
  gget (track_of c) i = Some (points_counting A rg c (i, false), points_counting A rg c (i, true)).
Proof using Hg.
  intros Hi. unfold track_of. destruct Hg as (_ & E1 & E2 & E3).
  unfold in_bounds in Hi. rewrite E1, E2, E3 in Hi. rewrite gget_gtab. now rewrite Hi.
Qed.

Lemma track_dims c : same_dims (track_of c) g.
Proof using Hg. destruct Hg as (_ & E1 & E2 & E3). now split. Qed.

Lemma track_wf c : gwf (track_of c).
Proof using Hg. destruct Hdims as (H1 & H2 & H3). now apply gtab_wf. Qed.

Lemma track_tracks c : zlen (c_points A c) < 2 ^ 31 -> tracks g (track_of c).
Proof using Hg.
  intros Hc. split; [apply track_wf|]. split; [apply track_dims|].
  intros i f s E. pose proof (gget_in_bounds _ _ _ E) as Hi.
  rewrite (in_bounds_dims _ g _ (track_dims c)) in Hi. rewrite gget_track in E by easy.
  assert (f = points_counting A rg c (i, false)) as -> by congruence.
  assert (s = points_counting A rg c (i, true)) as -> by congruence.
  pose proof (points_counting_sum A rg c i). pose proof (points_counting_nonneg A rg c (i, false)).
  pose proof (points_counting_nonneg A rg c (i, true)). unfold counts_ok. lia.
Qed.

Lemma zero_tracking : tracking_for rg (gconst (g_nx g) (g_ny g) (g_nz g) (0, 0)).
Proof using Hg.
  destruct Hg as ((Hx & Hy & Hz & _) & E1 & E2 & E3).
  split; [now apply gconst_wf|]. split; [exact E1|]. split; [exact E2|]. split; [exact E3|].
  intros i f s H. rewrite gget_gconst in H. destruct (in_bounds3 _ _ _ i); [|easy].
  assert (f = 0) as -> by congruence. assert (s = 0) as -> by congruence. now split.
Qed.

Lemma raycast_track c t : zlen (c_points A c) < 2 ^ 31 ->
  raycast_cloud A rg c (gconst (g_nx g) (g_ny g) (g_nz g) (0, 0)) t -> t = track_of c.
Proof using Hg.
  intros Hc Hr. destruct (raycast_cloud_result A rg c _ t zero_tracking Hr) as ((W & X & Y & Zz & _) & V).
  destruct Hg as (_ & E1 & E2 & E3).
  assert (D : same_dims t g) by (split; [congruence|split; congruence]).
  apply grid_ext; [easy|apply track_wf|eapply same_dims_trans; [exact D|apply same_dims_sym, track_dims]|].
  intros i Hi. rewrite (in_bounds_dims t g _ D) in Hi. rewrite gget_track by easy.
  rewrite (V i 0 0).
  - pose proof (points_counting_sum A rg c i). pose proof (points_counting_nonneg A rg c (i, false)).
    pose proof (points_counting_nonneg A rg c (i, true)). rewrite !Z.add_0_l, !wrap32_id by lia. reflexivity.
  - rewrite gget_gconst. unfold in_bounds in Hi. now rewrite Hi.
Qed.

Lemma raycast_tracks clouds tgs : few_points A clouds ->
  Forall2 (fun c t => raycast_cloud A rg c (gconst (g_nx g) (g_ny g) (g_nz g) (0, 0)) t) clouds tgs ->
  tgs = map track_of clouds.
Proof using Hg.
  intros Hf HF. induction HF as [|c t cs ts H _ IH]; [easy|].
  inversion Hf as [|? ? Hc Hcs]; subst. cbn [map]. f_equal; [now apply raycast_track|now apply IH].
Qed.

Lemma raycast_exists c : exists t,
  raycast_cloud A rg c (gconst (g_nx g) (g_ny g) (g_nz g) (0, 0)) t.
Proof using Hg.
  assert (Hs : schedules [zrange 0 (zlen (c_points A c))] (zlen (c_points A c))).
  { unfold schedules. cbn. rewrite app_nil_r. apply Permutation_refl. }
  destruct (raycast_cloud_finishes A rg c _ _ zero_tracking Hs) as (ws & E & Hf).
  destruct (Hf _ (tsteps_refl _)) as (ws' & t' & Ht & Hd).
  exists t', [zrange 0 (zlen (c_points A c))], ws, ws'. easy.
Qed.

Lemma seeing_track cls w clouds i : in_bounds g i = true ->
  cameras_seeing cls w (map track_of clouds) i = clouds_seeing A rg cls w clouds i.
Proof using Hg.
  intros Hi. induction clouds as [|c cs IH]; [reflexivity|]. cbn [map].
  rewrite cameras_seeing_cons, IH, gget_track by easy. unfold clouds_seeing, zlen. cbn [filter].
  destruct (cls _ _) as [v|]; [|lia]. destruct (seen_eqb w v); cbn [length]; lia.
Qed.

Lemma tracks_map clouds : few_points A clouds -> Forall (tracks g) (map track_of clouds).
Proof using Hg.
  intros Hf. apply Forall_forall. intros t Ht. apply in_map_iff in Ht. destruct Ht as (c & <- & Hc).
  apply track_tracks. unfold few_points in Hf. rewrite Forall_forall in Hf. now apply Hf.
Qed.

End Whole.

Lemma filtered_by_ext filled free filled' free' cameras (g g' : grid occ) :
  (forall i, in_bounds g i = true -> filled i = filled' i /\ free i = free' i) ->
  filtered_by filled free cameras g g' -> filtered_by filled' free' cameras g g'.
Proof.
  intros HE (W & D & H). split; [easy|]. split; [easy|]. intros i b Eb.
  destruct (HE i (gget_in_bounds _ _ _ Eb)) as (<- & <-). now apply H.
Qed.

(** ** CPU *)

Section Cpu.
Variable A : ray_arith.
Variable rg : ray_grid A.
Variables static output : grid occ.
Hypothesis Hs : map_for rg static.
Hypothesis Ho : map_for rg output.

Lemma cpu_voxelize_result o clouds output' : 0 < o_outlier o -> few_points A clouds ->
  cpu_voxelize A rg o clouds static output output' ->
  voxelized A rg (counts_seen_as o) (o_cameras o) clouds output output'.
Proof using Hs Ho.
  intros Hp Hf (tgs & HF & He). apply (raycast_tracks A rg static Hs) in HF; [|easy]. subst tgs.
  destruct (cpu_filter_result o (map (track_of A rg) clouds) output) as (_ & HR).
  - apply Ho.
  - now apply tracks_map.
  - easy.
  - pose proof (executes_filtered _ _ _ _ _ _ HR He) as HX. unfold voxelized.
    eapply filtered_by_ext; [|exact HX]. intros i Hi.
    now rewrite !(seeing_track A rg output).
Qed.

Lemma cpu_voxelize_exists o clouds : 0 < o_outlier o -> few_points A clouds ->
  exists output', cpu_voxelize A rg o clouds static output output'.
Proof using Hs Ho.
  intros Hp Hf.
  assert (HT : exists tgs, Forall2 (fun c t => raycast_cloud A rg c
      (gconst (g_nx static) (g_ny static) (g_nz static) (0, 0)) t) clouds tgs).
  { clear Hf. induction clouds as [|c cs (ts & IH)]; [now exists []|].
    destruct (raycast_exists A rg static Hs c) as (t & Ht). exists (t :: ts). now constructor. }
  destruct HT as (tgs & HF). pose proof (raycast_tracks A rg static Hs clouds tgs Hf HF) as E.
  destruct (cpu_filter_result o tgs output) as (HA & HR).
  - apply Ho.
  - subst tgs. now apply tracks_map.
  - easy.
  - destruct (executes_exists _ _ _ _ _ HA HR) as (g' & Hg'). exists g', tgs. easy.
Qed.
End Cpu.

(** ** Device *)

Section Device.
Variable A : ray_arith.
Variable rg : ray_grid A.
Variables static output : grid occ.
Hypothesis Hs : map_for rg static.

(** The grids whose counters the device memory holds: one more if there is no cloud. *)
Definition dev_grids (clouds : list (cloud A)) : list tgrid :=
  match clouds with
  | [] => [gconst (rg_nx A rg) (rg_ny A rg) (rg_nz A rg) (0, 0)]
  | _ => map (track_of A rg) clouds
  end.

Lemma dev_grids_len clouds : zlen (dev_grids clouds) = Z.max (zlen clouds) 1.
Proof using.
  destruct clouds as [|c cs]; [reflexivity|]. unfold dev_grids. rewrite zlen_map.
  unfold zlen. cbn [length]. lia.
Qed.

Lemma total_rg : g_total static = rg_nx A rg * rg_ny A rg * rg_nz A rg.
Proof using Hs. destruct Hs as (_ & E1 & E2 & E3). unfold g_total. congruence. Qed.

Lemma dev_memory address clouds items items' mem :
  few_points A clouds ->
  address_ok address (rg_nx A rg) (rg_ny A rg) (rg_nz A rg) (zlen clouds) ->
  cloud_items A rg (address (g_ny static) (g_nz static) (g_total static)) 0 clouds = Some items ->
  dsteps (items, repeat 0 (Z.to_nat (2 * (g_total static * Z.max (zlen clouds) 1)))) (items', mem) ->
  Forall (fun w => w = []) items' ->
  holds (g_total static) mem (dev_grids clouds).
Proof using Hs.
  intros Hf Ha Ei Hd Hdone.
  pose proof (total_pos static (proj1 Hs)) as Hpos.
  assert (Hc : 0 <= 2 * (g_total static * Z.max (zlen clouds) 1)) by nia.
  destruct (dsteps_after _ _ Hd) as (HL & HA). cbn [fst snd] in *.
  rewrite zlen_repeat, Z2Nat.id in HL by easy.
  assert (Hfin : forall a, 0 <= a < zlen mem -> zget mem a = Some (wrap32 (times a (concat items)))).
  { intros a Hra. specialize (HA a). unfold after in HA.
    assert (concat items' = []) as E0.
    { clear - Hdone. induction Hdone as [|w ws -> _ IH]; [easy|]. exact IH. }
    rewrite E0 in HA. rewrite (zget_repeat 0) in HA by lia. cbn [option_map] in HA.
    destruct (proj2 (zget_some_iff mem a) Hra) as (v & Ev). rewrite Ev in HA |- *. cbn [option_map] in HA.
    assert (Hv : wrap32 v = v).
    { apply (dsteps_range _ _ Hd) with (a := a); [|exact Ev]. cbn [snd]. intros b u Hb.
      assert (u = 0) as ->; [|reflexivity].
      pose proof (zget_range _ _ _ Hb) as Hrb. rewrite zlen_repeat in Hrb.
      rewrite zget_repeat in Hb by lia. congruence. }
    replace (times a []) with 0 in HA by reflexivity.
    rewrite Z.add_0_r, Z.add_0_l, Hv in HA. exact HA. }
  destruct Hs as (Ws & E1 & E2 & E3).
  destruct (cloud_items_ok A rg (address (g_ny static) (g_nz static) (g_total static)) clouds 0)
    as (items0 & Ei0 & Hin & Ht).
  { lia. }
  { intros k b Hk Hb. rewrite E2, E3, total_rg. apply Ha; [lia|easy]. }
  rewrite Ei in Ei0. assert (items0 = items) as -> by congruence. clear Ei0.
  split; [rewrite dev_grids_len; exact HL|].
  intros k t v c Et Ec. rewrite <- dev_grids_len in HL.
  pose proof (zget_range _ _ _ Et) as Hk.
  destruct clouds as [|c0 cs].
  - (* no cloud: the counters are untouched *)
    assert (k = 0) as -> by (unfold zlen in Hk; cbn in Hk; lia).
    assert (t = gconst (rg_nx A rg) (rg_ny A rg) (rg_nz A rg) (0, 0)) as ->
      by (unfold zget in Et; cbn in Et; congruence).
    assert (items = []) as -> by (cbn in Ei; congruence).
    pose proof (zget_range _ _ _ Ec) as Hv. cbn [g_cells gconst] in Hv, Ec.
    rewrite zlen_repeat in Hv. rewrite zget_repeat in Ec by lia.
    assert (c = (0, 0)) as -> by congruence.
    change (zlen (dev_grids [])) with 1 in HL. rewrite total_rg in *.
    rewrite !Hfin by lia. now split.
  - unfold dev_grids in Et. rewrite zget_map in Et.
    destruct (zget (c0 :: cs) k) as [d|] eqn:Ed; [|easy]. cbn [option_map] in Et.
    assert (t = track_of A rg d) as -> by congruence.
    pose proof (track_wf A rg static (conj Ws (conj E1 (conj E2 E3))) d) as Wt.
    pose proof (track_dims A rg static (conj Ws (conj E1 (conj E2 E3))) d) as Dt.
    assert (Hv : 0 <= v < g_total static).
    { pose proof (zget_range _ _ _ Ec) as Hv. destruct Wt as (_ & _ & _ & WL). rewrite WL in Hv.
      destruct Dt as (D1 & D2 & D3). unfold g_total in *. now rewrite D1, D2, D3 in Hv. }
    assert (Ecell : gget (track_of A rg d) (cell_at (g_ny static) (g_nz static) v) = Some c).
    { destruct Dt as (D1 & D2 & D3). rewrite <- Ec, <- (gget_cell_at (track_of A rg d) v Wt).
      - now rewrite D2, D3.
      - unfold g_total in *. now rewrite D1, D2, D3. }
    destruct Ws as (Wx & Wy & Wz & WL).
    destruct (cell_at_spec (g_nx static) (g_ny static) (g_nz static) v Wy Wz Hv) as (Hib & Hdi).
    set (i := cell_at (g_ny static) (g_nz static) v) in *.
    rewrite (gget_track A rg static (conj (conj Wx (conj Wy (conj Wz WL))) (conj E1 (conj E2 E3))) d i Hib) in Ecell.
    assert (c = (points_counting A rg d (i, false), points_counting A rg d (i, true))) as -> by congruence.
    cbn [fst snd].
    assert (Hk' : 0 <= k < zlen (c0 :: cs)) by now apply zget_range in Ed.
    rewrite dev_grids_len in HL.
    assert (Hlim : g_total static * k + g_total static <= g_total static * Z.max (zlen (c0 :: cs)) 1).
    { rewrite <- (Z.mul_1_r (g_total static)) at 2. rewrite <- Z.mul_add_distr_l.
      apply Z.mul_le_mono_nonneg_l; lia. }
    assert (Hlow : 0 <= g_total static * k) by (apply Z.mul_nonneg_nonneg; lia).
    assert (Hd31 : zlen (c_points A d) < 2 ^ 31).
    { unfold few_points in Hf. rewrite Forall_forall in Hf. apply Hf.
      unfold zget in Ed. destruct (k <? 0); [easy|]. eapply nth_error_In, Ed. }
    pose proof (points_counting_sum A rg d i).
    pose proof (points_counting_nonneg A rg d (i, false)). pose proof (points_counting_nonneg A rg d (i, true)).
    rewrite E1, E2, E3 in Hib. rewrite E2, E3 in Hdi.
    pose proof (Ht k d (i, false) Ed Hib) as T0. pose proof (Ht k d (i, true) Ed Hib) as T1.
    unfold place in T0, T1. cbn [fst snd] in T0, T1. rewrite <- total_rg, Hdi, Z.add_0_l in T0, T1.
    rewrite Z.add_0_r in T0.
    rewrite !Hfin by lia. rewrite T0, T1, !wrap32_id by lia. now split.
Qed.

Lemma dev_tracks clouds : few_points A clouds -> Forall (tracks static) (dev_grids clouds).
Proof using Hs.
  intros Hf. destruct clouds as [|c cs]; [|now apply tracks_map].
  constructor; [|constructor]. pose proof (Hdims A rg static Hs) as (D1 & D2 & D3).
  destruct Hs as (_ & E1 & E2 & E3).
  split; [now apply gconst_wf|]. split; [now split|].
  intros i f s E. rewrite gget_gconst in E. destruct (in_bounds3 _ _ _ i); [|easy].
  assert (f = 0) as -> by congruence. assert (s = 0) as -> by congruence. unfold counts_ok. lia.
Qed.

Lemma dev_seeing o w clouds i : 0 < o_outlier o -> in_bounds static i = true -> w <> SeenUnknown ->
  cameras_seeing (dev_seen_as o) w (dev_grids clouds) i = clouds_seeing A rg (dev_seen_as o) w clouds i.
Proof using Hs.
  intros Ho Hi Hw. destruct clouds as [|c cs]; [|now apply (seeing_track A rg static)].
  unfold dev_grids. rewrite cameras_seeing_cons, gget_gconst.
  destruct (in_bounds3 _ _ _ i); [|reflexivity].
  unfold dev_seen_as. rewrite classify_some by (auto; unfold counts_ok; lia).
  replace (o_outlier o <=? 0) with false by lia. cbn [Z.ltb Z.compare]. now destruct w.
Qed.

Lemma cuda_voxelize_result o threads clouds output' :
  0 < o_outlier o -> 0 < threads -> few_points A clouds ->
  2 * (g_total static * Z.max (zlen clouds) 1) <= 2 ^ 31 ->
  cuda_voxelize A rg o threads clouds static output output' ->
  voxelized A rg (dev_seen_as o) (o_cameras o) clouds static output'.
Proof using Hs.
  intros Ho Hth Hf Hsz (items & items' & mem & Ei & Hd & Hdone & He).
  pose proof (total_pos static (proj1 Hs)) as Hpos.
  assert (Hh : holds (g_total static) mem (dev_grids clouds)).
  { apply (dev_memory cuda_address clouds items items' mem); auto.
    apply cuda_address_ok. rewrite <- total_rg. nia. }
  rewrite <- dev_grids_len in He, Hsz.
  destruct (cuda_filter_result o threads mem (dev_grids clouds) static) as (_ & HR); auto.
  - apply Hs.
  - now apply dev_tracks.
  - pose proof (executes_filtered _ _ _ _ _ _ HR He) as HX. unfold voxelized.
    eapply filtered_by_ext; [|exact HX]. intros i Hi. now rewrite !dev_seeing.
Qed.

Lemma opencl_voxelize_result o clouds output' :
  0 < o_outlier o -> few_points A clouds ->
  2 * (g_total static * Z.max (zlen clouds) 1) <= 2 ^ 31 -> 2 * g_total static < 2 ^ 31 ->
  opencl_voxelize A rg o clouds static output output' ->
  voxelized A rg (dev_seen_as o) (o_cameras o) clouds static output'.
Proof using Hs.
  intros Ho Hf Hsz Hsz2 (items & items' & mem & Ei & Hd & Hdone & He).
  pose proof (total_pos static (proj1 Hs)) as Hpos.
  assert (Hh : holds (g_total static) mem (dev_grids clouds)).
  { apply (dev_memory opencl_address clouds items items' mem); auto.
    apply opencl_address_ok. rewrite <- total_rg. nia. }
  rewrite <- dev_grids_len in He, Hsz.
  destruct (opencl_filter_result o mem (dev_grids clouds) static) as (_ & HR); auto.
  - apply Hs.
  - now apply dev_tracks.
  - pose proof (executes_filtered _ _ _ _ _ _ HR He) as HX. unfold voxelized.
    eapply filtered_by_ext; [|exact HX]. intros i Hi. now rewrite !dev_seeing.
Qed.

(** A complete ray casting exists, so the theorems are not about nothing. *)
Lemma dev_raycast_exists address clouds :
  address_ok address (rg_nx A rg) (rg_ny A rg) (rg_nz A rg) (zlen clouds) ->
  exists items items' mem,
    cloud_items A rg (address (g_ny static) (g_nz static) (g_total static)) 0 clouds = Some items /\
    dsteps (items, repeat 0 (Z.to_nat (2 * (g_total static * Z.max (zlen clouds) 1)))) (items', mem) /\
    Forall (fun w => w = []) items'.
Proof using Hs.
  intros Ha. pose proof (total_pos static (proj1 Hs)) as Hpos.
  destruct (cloud_items_ok A rg (address (g_ny static) (g_nz static) (g_total static)) clouds 0)
    as (items & Ei & Hin & _).
  { lia. }
  { destruct Hs as (_ & E1 & E2 & E3). intros k b Hk Hb. rewrite E2, E3, total_rg. apply Ha; [lia|easy]. }
  destruct (dsteps_complete (S (length (concat items))) items
    (repeat 0 (Z.to_nat (2 * (g_total static * Z.max (zlen clouds) 1))))) as (items' & mem & Hd & Hdone).
  { lia. }
  { intros a Hin'. destruct (Hin a Hin') as (k & b & Hk & Hb & ->).
    pose proof (place_range _ _ _ k b ltac:(lia) Hb) as Hr. rewrite <- total_rg in *.
    rewrite zlen_repeat, Z2Nat.id by nia.
    assert (0 <= g_total static * k) by nia.
    assert (g_total static * (k + 1) <= g_total static * Z.max (zlen clouds) 1)
      by (apply Z.mul_le_mono_nonneg_l; lia). lia. }
  now exists items, items', mem.
Qed.

Lemma cuda_voxelize_exists o threads clouds :
  0 < o_outlier o -> 0 < threads -> few_points A clouds ->
  2 * (g_total static * Z.max (zlen clouds) 1) <= 2 ^ 31 ->
  exists output', cuda_voxelize A rg o threads clouds static output output'.
Proof using Hs.
  intros Ho Hth Hf Hsz. pose proof (total_pos static (proj1 Hs)) as Hpos.
  assert (Ha : address_ok cuda_address (rg_nx A rg) (rg_ny A rg) (rg_nz A rg) (zlen clouds)).
  { apply cuda_address_ok. rewrite <- total_rg. nia. }
  destruct (dev_raycast_exists cuda_address clouds Ha) as (items & items' & mem & Ei & Hd & Hdone).
  pose proof (dev_memory cuda_address clouds items items' mem Hf Ha Ei Hd Hdone) as Hh.
  rewrite <- dev_grids_len in Hsz.
  destruct (cuda_filter_result o threads mem (dev_grids clouds) static) as (HA & HR); auto.
  - apply Hs.
  - now apply dev_tracks.
  - destruct (executes_exists _ _ _ _ _ HA HR) as (g' & Hg').
    exists g', items, items', mem. rewrite <- dev_grids_len in *. easy.
Qed.

Lemma opencl_voxelize_exists o clouds :
  0 < o_outlier o -> few_points A clouds ->
  2 * (g_total static * Z.max (zlen clouds) 1) <= 2 ^ 31 -> 2 * g_total static < 2 ^ 31 ->
  exists output', opencl_voxelize A rg o clouds static output output'.
Proof using Hs.
  intros Ho Hf Hsz Hsz2. pose proof (total_pos static (proj1 Hs)) as Hpos.
  assert (Ha : address_ok opencl_address (rg_nx A rg) (rg_ny A rg) (rg_nz A rg) (zlen clouds)).
  { apply opencl_address_ok. rewrite <- total_rg. nia. }
  destruct (dev_raycast_exists opencl_address clouds Ha) as (items & items' & mem & Ei & Hd & Hdone).
  pose proof (dev_memory opencl_address clouds items items' mem Hf Ha Ei Hd Hdone) as Hh.
  rewrite <- dev_grids_len in Hsz.
  destruct (opencl_filter_result o mem (dev_grids clouds) static) as (HA & HR); auto.
  - apply Hs.
  - now apply dev_tracks.
  - destruct (executes_exists _ _ _ _ _ HA HR) as (g' & Hg').
    exists g', items, items', mem. rewrite <- dev_grids_len in *. easy.
Qed.

End Device.
