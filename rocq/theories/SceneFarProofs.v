(** Voxelization on the CPU with sensors anywhere. *)
From Coq Require Import ZArith Reals List Bool Lia Lra.
From Flocq Require Import Core BinarySingleNaN.
From Verif Require Import Util Grid SdfSpec FloatModel Occ RaycastModel RaycastSpec RaycastProofs RayGeoSpec RayRoundSpec RayFarSpec RayFarTop
  RayRoundProofs RayFloatModel RayFloatProofs RayFloatTop PoseModel VoxelRoundSpec VoxelShowProofs PoseProofs VoxelRoundProofs SceneFarSpec.
From Verif Require SdfDoubleSpec.
Import ListNotations.
Local Open Scope R_scope.

(** ** Moving the ends of a segment *)

Lemma reaches_axis_moves a b w o q o' q' d : Rabs (o' - o) <= d -> Rabs (q' - q) <= d -> b + 2 * d <= a -> reaches_axis a w o q -> reaches_axis b w o' q'.
Proof.
  intros Ho Hq Hb (H1 & H2). apply Rabs_le_inv in Ho, Hq. split; [destruct H1; [left|right]; lra|destruct H2; [left|right]; lra].
Qed.

Lemma reaches_moves v a b nx ny nz o q o' q' d : close d o' o -> close d q' q -> b + 2 * d <= a ->
  reaches v a nx ny nz o q -> reaches v b nx ny nz o' q'.
Proof.
  intros (X1 & Y1 & Z1) (X2 & Y2 & Z2) H (A1 & A2 & A3). split; [|split]; eapply reaches_axis_moves; eauto.
Qed.

Lemma passes_by_moves v a b nx ny nz o p o' p' d : close d o' o -> close d p' p -> b + 2 * d <= a ->
  passes_by v a nx ny nz o p -> passes_by v b nx ny nz o' p'.
Proof.
  intros (X1 & Y1 & Z1) (X2 & Y2 & Z2) H P t i Ht Hi Hn. apply (P t i Ht Hi).
  assert (D : 0 <= d) by (eapply Rle_trans; [apply Rabs_pos|exact X1]).
  assert (Q : forall h h' k k', Rabs (h' - h) <= d -> Rabs (k' - k) <= d -> Rabs (h' + t * (k' - h') - (h + t * (k - h))) <= 2 * d * (1 + t)).
  { intros h h' k k' Hh Hk. replace (h' + t * (k' - h') - (h + t * (k - h))) with ((h' - h) + t * ((k' - k) - (h' - h))) by ring.
    eapply Rle_trans; [apply Rabs_triang|]. rewrite Rabs_mult, (Rabs_pos_eq t) by exact Ht.
    assert (M : Rabs (k' - k - (h' - h)) <= 2 * d) by (apply Rabs_le_inv in Hh, Hk; apply Rabs_le; lra).
    assert (t * Rabs (k' - k - (h' - h)) <= t * (2 * d)) by (apply Rmult_le_compat_l; lra). lra. }
  assert (C : close (2 * d * (1 + t)) (along o' p' t) (along o p t)) by (split; [|split]; cbn [along px py pz fst snd]; now apply Q).
  refine (near_close v _ _ _ i _ _ C _ Hn). rewrite <- Rmult_plus_distr_r. apply Rmult_le_compat_r; lra.
Qed.

Lemma apart_moves o p o' p' d : close d o' o -> close d p' p -> apart (2 * d) o p -> o' <> p'.
Proof.
  intros (X1 & Y1 & Z1) (X2 & Y2 & Z2) H E. rewrite E in X1, Y1, Z1. apply Rabs_le_inv in X1, Y1, Z1, X2, Y2, Z2.
  destruct H as [H|[H|H]]; revert H; apply Rle_not_lt, Rabs_le; lra.
Qed.

Lemma min_moves d d' m y : Rabs (d' - d) <= y -> Rabs (Rmin d' m - Rmin d m) <= y.
Proof.
  intros H. apply Rabs_le_inv in H. apply Rabs_le. unfold Rmin. destruct (Rle_dec d' m), (Rle_dec d m); lra.
Qed.

Lemma cut_near_moves w w' range d d' t whole y : Rabs (d' - d) <= y -> w' + 2 * y <= w -> 0 <= t <= 1 ->
  cut_near w' range d' t whole -> cut_near w range d t whole.
Proof.
  intros Hd Hw Ht. destruct range as [m|]; cbn [cut_near]; [|easy]. intros (C1 & C2 & C3). pose proof (min_moves d d' m y Hd) as Q.
  assert (T : Rabs (t * (d' - d)) <= y).
  { rewrite Rabs_mult, (Rabs_pos_eq t) by lra. pose proof (Rabs_pos (d' - d)).
    assert (t * Rabs (d' - d) <= 1 * Rabs (d' - d)) by (apply Rmult_le_compat_r; lra). lra. }
  rewrite Rmult_minus_distr_l in T. apply Rabs_le_inv in Hd, C1, Q, T. split; [apply Rabs_le; lra|]. split; intros H; [apply C2|apply C3]; lra.
Qed.

Lemma dist_moves d o o' p p' : close d o' o -> close d p' p -> Rabs (dist o' p' - dist o p) <= 4 * d.
Proof.
  intros Ho Hp. pose proof (dist_close d o o' p p' Ho Hp). pose proof (dist_close d o' o p' p (close_sym _ _ _ Ho) (close_sym _ _ _ Hp)).
  apply Rabs_le. lra.
Qed.

Lemma within_moves b d p p' : close d p' p -> within b p -> within (b + d) p'.
Proof.
  intros (X & Y & Z) (A & B & C). apply Rabs_le_inv in X, Y, Z, A, B, C. split; [|split]; apply Rabs_le; lra.
Qed.

(** ** One ray *)

Lemma marks_view (fl : b64 -> Z) nx ny nz N (res : b64) S m range (o p : vec (double_ray fl)) bs :
  SdfDoubleSpec.floors fl -> is_finite res = true -> bpow radix2 (-300) <= B2R res <= bpow radix2 300 ->
  (1 <= N)%Z -> (N * (N + 128) <= 2 ^ 53)%Z -> (1 <= nx <= N)%Z -> (1 <= ny <= N)%Z -> (1 <= nz <= N)%Z ->
  IZR N * B2R res <= S -> / 10 ^ 9 <= S <= 2 ^ 11 -> S <= 2 ^ 21 * B2R res ->
  good_ray (double_ray fl) is_finite B2R S (bpow radix2 (-90) * B2R res) o p ->
  let a := reals (double_ray fl) B2R o in
  let b := reals (double_ray fl) B2R p in
  let e := far_error (IZR N) (B2R res) S in
  let g := double_grid fl nx ny nz res in
  in_grid _ g (voxel_of _ g o) = true \/ (a <> b /\ clear_view (B2R res) e (20 * bpow radix2 (-53) * dist a b) nx ny nz range a b) ->
  stands_for (double_ray fl) is_finite B2R m range ->
  cast_point _ g m o (voxel_of _ g o) p = Some bs ->
  exists s whole, marks_segment (B2R res) e s whole nx ny nz a b bs /\ cut_near (20 * bpow radix2 (-53) * dist a b) range (dist a b) s whole.
Proof.
  intros Hfl Fr Hr HN Hs Nx Ny Nz HS Sb Sv Hg a b e g Hv Hm Hc.
  assert (Vp : 0 < B2R res) by (pose proof (bpow_gt_0 radix2 (-300)); lra).
  assert (N1 : 1 <= IZR N) by (apply IZR_le; exact HN).
  destruct Hv as [Hi|(Hne & Hv)].
  - assert (B50 : S <= bpow radix2 50 * B2R res).
    { eapply Rle_trans; [exact Sv|]. apply Rmult_le_compat_r; [lra|]. change (2 ^ 21) with (IZR 2 ^ 21). change (bpow radix2 50) with (IZR 1125899906842624). lra. }
    destruct (marks_double fl nx ny nz N res m range o p bs Hfl Fr Hr HN Hs (proj2 Nx) (proj2 Ny) (proj2 Nz)
      (good_ray_le _ _ _ _ _ _ _ _ _ Hg B50 (Rle_refl _)) Hm Hi Hc) as (s & whole & M & C).
    exists s, whole. split; [|exact C]. refine (marks_more _ _ _ _ _ _ _ _ _ _ _ _ M).
    unfold e, far_error. change (bpow radix2 (-53)) with (/ IZR 9007199254740992). replace (2 ^ 53) with 9007199254740992 by ring.
    assert (0 <= S * S) by (apply Rmult_le_pos; lra). assert (0 <= IZR N * B2R res) by (apply Rmult_le_pos; lra). lra.
  - destruct (marks_far fl nx ny nz N res S m range o p bs Hfl Fr Hr HN Hs Nx Ny Nz HS Sb Sv Hg Hne Hm Hc) as (s & whole & M0 & M1 & M2 & C).
    exists s, whole. split; [|exact C]. destruct Hv as [Hv|Hv]; [exact (M1 (Hv s whole (proj1 M0) C))|].
    specialize (M2 Hv). subst bs. destruct M0 as (A1 & A2 & A3 & A4 & A5). split; [exact A1|]. split; [exact A2|]. split; [intros i w []|]. split; [exact A4|exact A5].
Qed.

Lemma low_coordinates (A : ray_arith) (val : rT A -> R) x d q z : close d (reals A val q) z ->
  x + d <= Rabs (px z) /\ x + d <= Rabs (py z) /\ x + d <= Rabs (pz z) ->
  forall f, f = vx A \/ f = vy A \/ f = vz A -> x <= Rabs (val (f q)).
Proof.
  intros (X & Y & Z) (P1 & P2 & P3). unfold reals in X, Y, Z. cbn [px py pz fst snd] in X, Y, Z.
  assert (Q : forall y w, Rabs (y - w) <= d -> x + d <= Rabs w -> x <= Rabs y).
  { clear. intros y w H1 H2. pose proof (Rabs_triang_inv w y) as T. rewrite Rabs_minus_sym in T. lra. }
  intros f Hf. destruct Hf as [ -> |[ -> | -> ]]; eapply Q; eassumption.
Qed.

(** ** One cloud *)

Lemma far_cloud_matches fl fl32 nx ny nz N (res : b64) s b S gw (c : wrapped fl fl32) :
  SdfDoubleSpec.floors fl -> is_finite res = true -> bpow radix2 (-300) <= B2R res <= bpow radix2 300 ->
  (1 <= N)%Z -> (N * (N + 128) <= 2 ^ 53)%Z -> (1 <= nx <= N)%Z -> (1 <= ny <= N)%Z -> (1 <= nz <= N)%Z ->
  bpow radix2 (-300) <= s <= bpow radix2 44 * B2R res ->
  let A := double_ray fl in
  let d := 500 * (bpow radix2 (-53) * s) in
  let e0 := far_error (IZR N) (B2R res) S in
  let sg := sighting_of A A B2R B2R gw (w_pose fl fl32 c) (w_double fl fl32 c) (range_of (w_range fl fl32 c)) in
  IZR N * B2R res <= S -> / 10 ^ 9 <= S <= 2 ^ 11 -> S <= 2 ^ 21 * B2R res -> b + d <= S ->
  tame A is_finite B2R s gw -> tame A is_finite B2R s (w_pose fl fl32 c) ->
  (forall p, In p (w_double fl fl32 c) -> vfinite A p = true -> within s (reals A B2R p)) ->
  good_range (w_range fl fl32 c) ->
  good_view (B2R res) (e0 + 2 * d) (slack (bpow radix2 (-53)) s) (2 * d) (bpow radix2 (-30) * B2R res + d) b nx ny nz sg ->
  cloud_matches A (double_grid fl nx ny nz res) (B2R res) (e0 + d) (slack (bpow radix2 (-53)) s) (cpu_cloud fl fl32 gw c) sg.
Proof.
  intros Hfl Fr Hr HN HNs Nx Ny Nz Hs A d e0 sg HS Sb Sv Hb HG HX HP Hm (Wo & Pl & Hv).
  pose proof (double_setup fl nx ny nz N res Hfl Fr Hr HN HNs (proj2 Nx) (proj2 Ny) (proj2 Nz)) as ST. pose proof (proj1 ST) as RR.
  destruct (double_numbers (B2R res) s Hr Hs) as (Hu & E1 & E2 & M1 & M2 & Sp & Rp & KK).
  pose proof (cpu_place fl fl32 s gw c _ _ _ _ RR Hu (bpow_ge_0 _ _) E1 E2 M1 M2 Sp HG HX) as Place.
  set (g := double_grid fl nx ny nz res). set (cl := cpu_cloud fl fl32 gw c).
  set (to_grid := fun q => placed A B2R gw (placed A B2R (w_pose fl fl32 c) q)).
  set (mu := bpow radix2 (-30) * B2R res) in *. assert (Mu : 0 < mu) by (apply Rmult_lt_0_compat; [apply bpow_gt_0|exact Rp]).
  set (u := bpow radix2 (-53)) in *. assert (US : 0 < u * s) by (apply Rmult_lt_0_compat; lra). assert (US' : u * s <= / 1000 * s) by (apply Rmult_le_compat_r; lra).
  assert (Dp : 0 < d) by (unfold d; fold u; lra).
  assert (Gap : forall x y : b64, mu <= Rabs (B2R x) -> not_tiny (bpow radix2 (-90) * B2R res) (B2R y - B2R x)).
  { intros x y H. pose proof (float_gap 53 1024 prec53 x y _ ltac:(clear; lia) Mu H) as T.
    destruct T as [T|T]; [left; exact T|right]. eapply Rle_trans; [|exact T]. unfold mu.
    replace (bpow radix2 (-30) * B2R res * bpow radix2 (- (53) - 1)) with (bpow radix2 (-30) * bpow radix2 (- (53) - 1) * B2R res) by ring.
    apply Rmult_le_compat_r; [lra|]. rewrite <- bpow_plus. apply bpow_le; clear; lia. }
  assert (Po : well_placed A is_finite B2R u s (c_origin A cl) (to_grid (0, 0, 0))).
  { destruct (rr_zero _ _ _ _ _ _ _ RR) as (F & E).
    assert (Q : reals A B2R (r_zero A, r_zero A, r_zero A) = (0, 0, 0)) by (unfold reals; cbn [vx vy vz fst snd]; change (double_ray fl) with A in E; now rewrite E).
    unfold c_origin. rewrite <- Q. apply Place; [split; [exact F|split; exact F]|]. change (within s (reals A B2R (r_zero A, r_zero A, r_zero A))). rewrite Q. unfold within. cbn [px py pz fst snd]. rewrite Rabs_R0. lra. }
  destruct Po as (Fo & Co & Wo44). fold d in Co. change (to_grid (0, 0, 0)) with (sg_origin sg) in Co.
  assert (Comp : forall q y, within y (reals A B2R q) -> forall f, f = vx A \/ f = vy A \/ f = vz A -> Rabs (B2R (f q)) <= y).
  { intros q y (X & Y & Z) f Hf. unfold reals in X, Y, Z. cbn [px py pz fst snd] in X, Y, Z. destruct Hf as [ -> |[ -> | -> ]]; assumption. }
  assert (Fcomp : forall q, vfin A is_finite q -> forall f, f = vx A \/ f = vy A \/ f = vz A -> is_finite (f q) = true).
  { intros q (X & Y & Z) f Hf. destruct Hf as [ -> |[ -> | -> ]]; assumption. }
  assert (Low : forall f, f = vx A \/ f = vy A \/ f = vz A -> mu <= Rabs (B2R (f (c_origin A cl)))).
  { exact (low_coordinates A B2R mu d _ _ Co Pl). }
  assert (Wo' := within_moves _ _ _ _ Co Wo).
  assert (Finite : forall p, vfinite A p = true -> vfin A is_finite p).
  { intros p F. unfold vfinite in F. apply andb_true_iff in F. destruct F as (F & F3). apply andb_true_iff in F. destruct F. split; [|split]; assumption. }
  assert (Pts : forall p, In p (w_double fl fl32 c) -> vfinite A p = true -> In (Some (to_grid (reals A B2R p))) (sg_points sg)).
  { intros p Hp F. unfold sg, sighting_of. cbn [sg_points]. apply in_map_iff. exists p. split; [now rewrite F|exact Hp]. }
  apply (cloud_moves A B2R g cl (sg_origin sg) (sg_points sg) (range_of (w_range fl fl32 c)) (range_of (w_range fl fl32 c)) (B2R res) e0 u s Sp Hu).
  - intros p bs Hp F E. change (c_points A cl) with (w_double fl fl32 c) in Hp. cbv zeta.
    destruct (Place p (Finite p F) (HP p Hp F)) as (Fp & Cp & Wp). fold d in Cp. change (close d (reals A B2R (c_to_grid A cl p)) (to_grid (reals A B2R p))) in Cp.
    destruct (Hv _ (Pts p Hp F)) as (Wb & V). assert (Wp' := within_moves _ _ _ _ Cp Wb). cbn [c_to_grid cl] in Cp.
    refine (marks_view fl nx ny nz N res S (w_range fl fl32 c) (range_of (w_range fl fl32 c)) (c_origin A cl) (c_to_grid A cl p) bs
      Hfl Fr Hr HN HNs Nx Ny Nz HS Sb Sv _ _ (cpu_range fl _ Hm) E).
    + intros f Hf. split; [now apply Fcomp|]. split; [now apply Fcomp|]. split; [eapply Rle_trans; [now apply (Comp _ _ Wo')|exact Hb]|].
      split; [eapply Rle_trans; [now apply (Comp _ _ Wp')|exact Hb]|]. apply Gap. now apply Low.
    + destruct V as [V|(Ap & V)].
      * left. assert (Ino : inside (B2R res) e0 nx ny nz (reals A B2R (c_origin A cl))) by (refine (inside_weaken _ _ e0 _ _ _ _ _ d V Co _); lra).
        apply (voxel_in A is_finite B2R _ _ _ _ _ _ g N _ (B2R res) ST).
        { cbn [g double_grid rg_voxel]. rewrite Rminus_diag_eq, Rabs_R0 by reflexivity. apply Rmult_le_pos; [apply bpow_ge_0|lra]. }
        { exact Rp. }
        { intros f Hf. split; [now apply Fcomp|]. eapply Rle_trans; [now apply (Comp _ _ Wo44)|exact KK]. }
        assert (Cov : 20 * IZR N * bpow radix2 (-53) * B2R res <= e0).
        { unfold e0, far_error. change (bpow radix2 (-53)) with (/ IZR 9007199254740992). replace (2 ^ 53) with 9007199254740992 by ring.
          assert (N1 : 1 <= IZR N) by (apply IZR_le; exact HN). assert (0 <= S * S) by (apply Rmult_le_pos; lra).
          assert (0 <= IZR N * B2R res) by (apply Rmult_le_pos; lra). assert (0 <= IZR N * IZR N * B2R res) by (apply Rmult_le_pos; [apply Rmult_le_pos|]; lra). lra. }
        destruct Ino as (X & Y & Z). cbn [g double_grid rg_nx rg_ny rg_nz]. fold u in Cov. clear - X Y Z Cov. split; [|split]; lra.
      * right. split; [exact (apart_moves _ _ _ _ _ Co Cp Ap)|]. destruct V as [V|V].
        { left. intros t whole Ht Ct. refine (reaches_moves _ _ _ _ _ _ _ _ _ _ d Co (along_close d _ _ _ _ t Ht Co Cp) _ (V t whole Ht _)); [apply Rle_refl|].
          refine (cut_near_moves _ _ _ _ _ _ _ (4 * d) (dist_moves _ _ _ _ _ Co Cp) _ Ht Ct).
          pose proof (dist_within (44 * s) _ _ ltac:(lra) Wo44 Wp) as D44.
          assert (D1 : 20 * u * dist (reals A B2R (c_origin A cl)) (reals A B2R (c_to_grid A cl p)) <= 20 * u * (4 * (44 * s))) by (apply Rmult_le_compat_l; [clear - Hu; lra|exact D44]).
          change (20 * u * dist (reals A B2R (c_origin A cl)) (reals A B2R (c_to_grid A cl p)) + 2 * (4 * d) <= slack u s).
          eapply Rle_trans; [apply Rplus_le_compat_r; exact D1|]. unfold slack, d. fold u. clear - US. lra. }
        right. refine (passes_by_moves _ _ _ _ _ _ _ _ _ _ _ Co Cp _ V). apply Rle_refl.
  - exact Co.
  - exact Wo44.
  - unfold sg, sighting_of, zlen. cbn [sg_points]. now rewrite map_length.
  - intros k p E. pose proof (zget_In _ _ _ E) as Hp. unfold sg, sighting_of. cbn [sg_points]. rewrite (zget_map' _ _ _ _ E).
    destruct (vfinite A p) eqn:F; [|reflexivity].
    destruct (Place p (Finite p F) (HP p Hp F)) as (Fp & Cp & Wp). eexists. split; [reflexivity|]. split; [exact Cp|exact Wp].
  - apply same_range. lra.
Qed.
