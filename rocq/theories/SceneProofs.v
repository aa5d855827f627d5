(** From points to the field of distances. *)
From Coq Require Import ZArith Reals List Bool Lia Lra ZifyBool.
From Flocq Require Import Core BinarySingleNaN.
From Verif Require Import Util Grid SdfSpec FloatModel Occ SdfModel SdfQuerySpec ClearanceSpec ClearanceProofs RaycastModel RaycastSpec RaycastProofs
  RayGeoSpec RayRoundSpec RayFloatModel RayFloatTop FilterModel FilterSpec FilterProofs FilterFloatProofs DeviceProofs PoseModel VoxelRoundSpec
  VoxelShowProofs PoseProofs VoxelRoundProofs SceneSpec PropsFilter.
Import ListNotations.
Local Open Scope R_scope.

Lemma gap_dist p q : gap p q = dist p q.
Proof.
  destruct p as ((x, y), z), q as ((x', y'), z'). unfold gap, dist. cbn [px py pz fst snd]. f_equal. ring.
Qed.

Lemma near_in v e i p : 0 < v -> 0 <= e -> near_voxel v e i p -> exists y, in_voxel v i y /\ gap p y <= sqrt 3 * e.
Proof.
  destruct i as ((ci, cj), ck), p as ((x, y), z). unfold near_voxel, in_voxel. cbn [ix iy iz px py pz fst snd].
  intros Hv He (X & Y & Z).
  assert (Q : forall k a, IZR k * v - e <= a <= (IZR k + 1) * v + e -> exists b, v * IZR k <= b <= v * (IZR k + 1) /\ Rabs (a - b) <= e).
  { intros k a H. destruct (Rlt_le_dec a (IZR k * v)) as [L|L].
    - exists (IZR k * v). split; [lra|]. apply Rabs_le. lra.
    - destruct (Rlt_le_dec ((IZR k + 1) * v) a) as [G|G].
      + exists ((IZR k + 1) * v). split; [lra|]. apply Rabs_le. lra.
      + exists a. split; [lra|]. apply Rabs_le. lra. }
  destruct (Q _ _ X) as (a & A1 & A2). destruct (Q _ _ Y) as (b & B1 & B2). destruct (Q _ _ Z) as (c & C1 & C2).
  exists (a, b, c). cbn [fst snd]. split; [auto|]. now apply gap_box.
Qed.

Lemma near_voxel_gap v e i p y : 0 < v -> 0 <= e -> near_voxel v e i p -> in_voxel v i y -> gap y p <= sqrt 3 * (v + e).
Proof.
  destruct i as ((ci, cj), ck), p as ((x, y0), z), y as ((a, b), c). unfold near_voxel, in_voxel. cbn [ix iy iz px py pz fst snd].
  intros Hv He (X & Y & Z) (A & B & C). apply gap_box; [lra| | |]; apply Rabs_le; lra.
Qed.

Lemma close_gap d p q : close d p q -> gap p q <= sqrt 3 * d.
Proof.
  destruct p as ((x, y), z), q as ((x', y'), z'). unfold close. cbn [px py pz fst snd]. intros (X & Y & Z).
  apply gap_box; try assumption. eapply Rle_trans; [apply Rabs_pos|exact X].
Qed.

(** ** The distances *)

Section Bracket.
Variables (v e w : R) (nx ny nz : Z) (seen : list sighting) (static g : grid occ).
Hypothesis Hv : 0 < v.
Hypothesis He : 0 <= e.
Hypothesis HR : reflects v e w nx ny nz seen static g.
Hypothesis Dims : g_nx g = nx /\ g_ny g = ny /\ g_nz g = nz.

Lemma map_box i b : gget g i = Some b -> in_box nx ny nz i.
Proof using Dims.
  intros E. apply gget_in_bounds in E. destruct Dims as (X & Y & Z). destruct i as ((x, y), z).
  unfold in_bounds, in_bounds3 in E. rewrite X, Y, Z in E. cbn. cbn in E. lia.
Qed.

Lemma scene_brackets eps uf border d a b q q' delta : 0 <= eps < 1 ->
  clearance eps v nx ny nz (map_filled g (occ_filled uf)) border d a b q' -> close delta q' q ->
  brackets eps (a + (1 + eps) * (sqrt 3 * (e + delta))) (b + sqrt 3 * (v + e + delta))
    (surely_blocks v e w nx ny nz seen static border)
    (fun y => may_block v e w nx ny nz seen static border y \/ (uf = true /\ unknown_at v g y)) d q.
Proof using Hv He HR Dims.
  intros Heps ((U & Lo) & _) Hq. assert (Gq := close_gap _ _ _ Hq). destruct HR as (R1 & R2 & R3).
  assert (S3 : 0 <= sqrt 3) by apply sqrt_pos.
  assert (D0 : 0 <= delta) by (destruct Hq as (X & _); eapply Rle_trans; [apply Rabs_pos|exact X]).
  assert (SE : 0 <= sqrt 3 * e) by (apply Rmult_le_pos; assumption). assert (SD : 0 <= sqrt 3 * delta) by (apply Rmult_le_pos; assumption).
  assert (SV : 0 <= sqrt 3 * v) by (apply Rmult_le_pos; lra).
  assert (Ev : forall y y0 t, gap y y0 <= t -> d <= (1 + eps) * gap q' y0 + a -> d <= (1 + eps) * dist q y + a + (1 + eps) * (sqrt 3 * delta + t)).
  { intros y y0 t Ht H. eapply Rle_trans; [exact H|]. rewrite <- gap_dist.
    pose proof (gap_triangle q' q y0) as T1. pose proof (gap_triangle q y y0) as T2.
    assert ((1 + eps) * gap q' y0 <= (1 + eps) * (sqrt 3 * delta + (gap q y + t))) by (apply Rmult_le_compat_l; lra). lra. }
  assert (Fill : forall i c, gget g i = Some c -> occ_gt c = true -> blocked nx ny nz (map_filled g (occ_filled uf)) border i).
  { intros i c E O. left. split; [exact (map_box _ _ E)|]. unfold map_filled. rewrite E. unfold occ_filled. now rewrite O. }
  assert (Z : forall y : pt, gap y y = 0).
  { intros ((x, y), z). unfold gap. rewrite !Rminus_diag_eq by reflexivity. rewrite Rmult_0_l, !Rplus_0_l. apply sqrt_0. }
  assert (Fin : forall y t, 0 <= t -> d <= (1 + eps) * dist q y + a + (1 + eps) * (sqrt 3 * delta + t) -> t <= sqrt 3 * e ->
    d <= (1 + eps) * dist q y + (a + (1 + eps) * (sqrt 3 * (e + delta)))).
  { intros y t T0 H Ht. assert ((1 + eps) * (sqrt 3 * delta + t) <= (1 + eps) * (sqrt 3 * (e + delta))) by (apply Rmult_le_compat_l; lra). lra. }
  split.
  - intros y [(S & HS & Hy & Sh)|[(j & c & E & O & I)|(B & j & Sh & I)]].
    + destruct (R2 S y HS Hy Sh) as (i & c & E & O & Nr). destruct (near_in v e i y Hv He Nr) as (y0 & I & G).
      apply (Fin y (sqrt 3 * e) SE); [|lra]. apply (Ev y y0 _ G). exact (U i y0 (Fill i c E O) I).
    + apply (Fin y 0 (Rle_refl 0)); [|lra]. apply (Ev y y 0); [rewrite Z; lra|]. exact (U j y (Fill j c (R1 j c E O) O) I).
    + apply (Fin y 0 (Rle_refl 0)); [|lra]. apply (Ev y y 0); [rewrite Z; lra|]. apply (U j y); [right; auto|exact I].
  - destruct Lo as (j & y & Bl & I & H).
    assert (Ev' : forall p t, gap y p <= t -> 0 <= t -> (1 - eps) * dist q p <= Rmax d 0 + b + sqrt 3 * delta + t).
    { intros p t Ht T0. rewrite <- gap_dist. pose proof (gap_triangle q q' p) as T1. pose proof (gap_triangle q' y p) as T2. rewrite (gap_sym q q') in T1.
      assert ((1 - eps) * gap q p <= (1 - eps) * (sqrt 3 * delta + gap q' y + t)) by (apply Rmult_le_compat_l; lra).
      assert ((1 - eps) * (sqrt 3 * delta + t) <= 1 * (sqrt 3 * delta + t)) by (apply Rmult_le_compat_r; lra). lra. }
    destruct Bl as [(Bx & F)|(B & Sh)].
    + unfold map_filled in F. destruct (gget g j) as [c|] eqn:E; [|easy]. unfold occ_filled in F.
      destruct (occ_gt c) eqn:O.
      * destruct (R3 j c E O) as [Es|(S & p & HS & Hp & Me)].
        -- exists y. split; [left; right; left; now exists j, c|]. pose proof (Ev' y 0 ltac:(rewrite Z; lra) (Rle_refl 0)). lra.
        -- exists p. split; [left; left; exists S, j; auto|].
           pose proof (Ev' p _ (near_voxel_gap v e j p y Hv He (proj2 Me) I)). lra.
      * cbn [orb] in F. apply andb_true_iff in F. destruct F as (-> & F). exists y. split; [right; split; [reflexivity|]; now exists j, c|].
        pose proof (Ev' y 0 ltac:(rewrite Z; lra) (Rle_refl 0)). lra.
    + exists y. split; [left; right; right; split; [exact B|]; now exists j|].
      pose proof (Ev' y 0 ltac:(rewrite Z; lra) (Rle_refl 0)). lra.
Qed.
End Bracket.

(** ** The map *)

Lemma gt_not_le b : occ_gt b = true -> occ_le b = false.
Proof.
  unfold occ_gt, occ_le, occ_lt, occ_eq, occ_nan. lia.
Qed.

Lemma map_reflects (A : ray_arith) (g : ray_grid A) v e w cls cameras clouds seen static g' :
  map_for g static -> (forall i b, gget static i = Some b -> occ_nan b = false) ->
  Forall2 (cloud_matches A g v e w) clouds seen -> voxelized A g cls cameras clouds static g' ->
  shows v e w 1 cameras seen static g' ->
  (forall c i, In c clouds -> (0 < points_counting A g c (i, true))%Z ->
    cls (points_counting A g c (i, false)) (points_counting A g c (i, true)) = Some SeenFilled) ->
  reflects v e w (rg_nx A g) (rg_ny A g) (rg_nz A g) seen static g'.
Proof.
  intros HF HN H2 (W' & D' & HV) HS HC.
  destruct (Forall2_zget _ _ _ H2) as (HL & HZ). split; [|split].
  - intros i b E O. destruct (HS i b E) as (b' & E' & K & _). rewrite E'. f_equal. apply K. now apply gt_not_le.
  - intros S p Hin Hp Sh.
    apply In_zget in Hin. destruct Hin as (k & Ek). pose proof (zget_range _ _ _ Ek) as Hk. rewrite <- HL in Hk.
    destruct (proj2 (zget_some_iff clouds k) Hk) as (c & Ec). pose proof (HZ k c S Ec Ek) as (ML & M).
    apply In_zget in Hp. destruct Hp as (j & Ej). pose proof (zget_range _ _ _ Ej) as Hj. rewrite ML in Hj.
    destruct (proj2 (zget_some_iff (c_points A c) j) Hj) as (x & Ex). specialize (M j x Ex). unfold point_matches in M.
    destruct (vfinite A x) eqn:F; [|congruence]. destruct M as (q & bs & Eq & Eb & Me & Mi).
    rewrite Ej in Eq. injection Eq as <-. destruct (Me Sh) as (i & Hi).
    destruct (point_work_some A g c j Hj) as (bs' & Eb' & _ & Gr). assert (Es := Eb').
    unfold point_work in Es. rewrite Ex in Es. cbn [obind] in Es. rewrite F, Eb in Es. injection Es as <-.
    pose proof (Gr _ Hi) as Gi. cbn [fst] in Gi. destruct (Mi i Gi) as (_ & Mn & _). destruct (Mn Hi) as (_ & Nr).
    assert (Cp : (0 < points_counting A g c (i, true))%Z).
    { apply count_pos. exists j. split; [now apply in_zrange|]. rewrite Eb'. apply existsb_exists. exists (i, true).
      split; [exact Hi|now apply bump_eqb_eq]. }
    assert (Cl : (0 < clouds_seeing A g cls SeenFilled clouds i)%Z).
    { apply zlen_filter_pos. exists c. split; [exact (zget_In _ _ _ Ec)|]. now rewrite (HC c i (zget_In _ _ _ Ec) Cp). }
    destruct HF as (Wf & X & Y & Z). destruct (gget_some static i Wf) as (b & Es).
    { unfold in_grid in Gi. unfold in_bounds. now rewrite X, Y, Z. }
    destruct (HV i b Es) as (V1 & V2 & _).
    destruct (occ_le b) eqn:O.
    + exists i, one_bits. split; [now apply V2|]. split; [reflexivity|exact Nr].
    + exists i, b. split; [now apply V1|]. split; [|exact Nr].
      specialize (HN i b Es). clear - O HN. unfold occ_gt, occ_le, occ_lt, occ_eq in *. lia.
  - intros i b E O.
    destruct HF as (Wf & X & Y & Z). destruct (gget_some static i Wf) as (b0 & Es).
    { rewrite <- (in_bounds_dims g' static i D'). eapply gget_in_bounds; eauto. }
    destruct (HS i b0 Es) as (b' & E' & K1 & K2). rewrite E in E'. injection E' as <-.
    destruct (occ_le b0) eqn:O'.
    + right. destruct (K2 eq_refl) as (_ & K & _). 
      assert (b = one_bits) as ->.
      { destruct (K2 eq_refl) as ([Q|[Q|Q]] & _); [exact Q| |]; rewrite Q in O; discriminate O. }
      destruct (K eq_refl) as (S & HS' & (ks & _ & L & Hks)). destruct ks as [|k ks]; [unfold zlen in L; cbn in L; lia|].
      destruct (Hks k (or_introl eq_refl)) as (x & Ex & (p & -> & Me)). exists S, p. split; [exact HS'|]. split; [exact (zget_In _ _ _ Ex)|exact Me].
    + left. rewrite Es. f_equal. symmetry. now apply K1.
Qed.

(** Counts of a cloud with few points. *)
Lemma default_filled cameras f s : (0 <= f)%Z -> (0 < s)%Z -> (f + s < 2 ^ 31)%Z ->
  counts_seen_as (mkOptions b64_one 1 cameras) f s = Some SeenFilled.
Proof. intros Hf Hs Ht. apply (c44_default_filled f s); [split; [exact Hf|]; lia|exact Hs]. Qed.

Lemma default_filled_dev cameras f s : (0 < cameras)%Z -> (0 <= f)%Z -> (0 < s)%Z -> (f + s <= 2 ^ 24)%Z ->
  dev_seen_as (mkOptions b64_one 1 cameras) f s = Some SeenFilled.
Proof.
  intros Hc Hf Hs Ht. assert (V : valid_options (mkOptions b64_one 1 cameras)).
  { split; [reflexivity|]. split; [cbn [o_percent]; rewrite one_val; lra|]. now split. }
  assert (Ok : counts_ok f s) by (split; [exact Hf|]; lia).
  rewrite classes_agree; [apply default_filled; lia|exact V|exact Ok|].
  intros _ _. right. right. now split.
Qed.

(** ** The location *)

Lemma pose_places (A : ray_arith) fin val u eta M L s : rounded_ray A fin val u eta M L -> 0 < u <= / 1000 -> 0 <= eta ->
  eta <= u * s -> 300 * s <= M -> 0 < s ->
  forall (G : pose A) p, tame A fin val s G -> vfin A fin p -> within s (reals A val p) ->
  vfin A fin (pose_apply A G p) /\ close (260 * (u * s)) (reals A val (pose_apply A G p)) (placed A val G (reals A val p)).
Proof.
  intros RR Hu He Hes HM Hs G p HG Fp Wp.
  assert (Q : forall a f, a = po_x A G \/ a = po_y A G \/ a = po_z A G -> f = vx A \/ f = vy A \/ f = vz A ->
    fin (r_add A (dot3 A a p) (f (po_t A G))) = true /\
    Rabs (val (r_add A (dot3 A a p) (f (po_t A G))) - (rdot (reals A val a) (reals A val p) + val (f (po_t A G)))) <= 260 * (u * s)).
  { intros a f Ha Hf.
    assert (Row : forall h, h = vx A \/ h = vy A \/ h = vz A -> fin (h a) = true /\ Rabs (val (h a)) <= 2) by (intros h Hh; now apply (HG h Hh)).
    destruct (HG f Hf) as (_ & Ft & Bt).
    destruct (apply_row A fin val u eta M L RR Hu He a p (f (po_t A G)) (reals A val a) (val (f (po_t A G))) s 0 0) as (F & E); try assumption; try lra.
    - split; [|split]; apply Row; auto.
    - intros h Hh. split; [destruct (Row h Hh); lra|]. destruct Wp as (W1 & W2 & W3). unfold reals in W1, W2, W3. cbn [px py pz fst snd] in W1, W2, W3.
      destruct Hh as [ -> |[ -> | -> ]]; assumption.
    - unfold reals. cbn [px fst snd]. rewrite Rminus_diag_eq, Rabs_R0 by reflexivity. lra.
    - unfold reals. cbn [py fst snd]. rewrite Rminus_diag_eq, Rabs_R0 by reflexivity. lra.
    - unfold reals. cbn [pz fst snd]. rewrite Rminus_diag_eq, Rabs_R0 by reflexivity. lra.
    - rewrite Rminus_diag_eq, Rabs_R0 by reflexivity. lra.
    - split; [exact F|]. eapply Rle_trans; [exact E|]. lra. }
  destruct (Q _ _ (or_introl eq_refl) (or_introl eq_refl)) as (X1 & X2).
  destruct (Q _ _ (or_intror (or_introl eq_refl)) (or_intror (or_introl eq_refl))) as (Y1 & Y2).
  destruct (Q _ _ (or_intror (or_intror eq_refl)) (or_intror (or_intror eq_refl))) as (Z1 & Z2).
  split; [split; [exact X1|split; [exact Y1|exact Z1]]|]. split; [exact X2|]. split; [exact Y2|exact Z2].
Qed.
