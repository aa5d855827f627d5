(** From the counters of single points to the map. *)
From Coq Require Import ZArith Reals List Bool Lia Lra ZifyBool.
From Flocq Require Import Core BinarySingleNaN.
From Verif Require Import Util Grid SdfSpec FloatModel Occ RaycastModel RaycastSpec RaycastProofs RayGeoSpec RayRoundSpec RayFloatModel
  RayFloatTop FilterModel FilterSpec FilterProofs PoseModel VoxelRoundSpec.
Import ListNotations.
Local Open Scope Z_scope.

Definition at_index {X} (h : X -> bool) (l : list X) (k : Z) : bool :=
  match zget l k with Some x => h x | None => false end.

Lemma count_at_index {X} (h : X -> bool) (l : list X) :
  zlen (filter h l) = zlen (filter (at_index h l) (zrange 0 (zlen l))).
Proof.
  assert (H : forall l1 l2, l = l1 ++ l2 ->
    zlen (filter (at_index h l) (zrange (zlen l1) (zlen l))) = zlen (filter h l2)).
  { intros l1 l2. revert l1. induction l2 as [|p l2 IH]; intros l1 E.
    - rewrite E, app_nil_r, zrange_nil by lia. reflexivity.
    - assert (Hlt : zlen l1 < zlen l) by (rewrite E; unfold zlen; rewrite app_length; cbn [length]; lia).
      rewrite (zrange_cons _ _ Hlt). specialize (IH (l1 ++ [p])). rewrite <- app_assoc in IH. specialize (IH E).
      assert (zlen (l1 ++ [p]) = zlen l1 + 1) as El by (unfold zlen; rewrite app_length; cbn [length]; lia).
      rewrite El in IH. cbn [filter].
      assert (Ek : zget l (zlen l1) = Some p).
      { unfold zget, zlen. destruct (Z.of_nat (length l1) <? 0) eqn:Eq; [lia|].
        rewrite Nat2Z.id, E, nth_error_app2, Nat.sub_diag by lia. reflexivity. }
      assert (Eh : at_index h l (zlen l1) = h p) by (unfold at_index; now rewrite Ek).
      rewrite Eh. destruct (h p); unfold zlen in *; cbn [length]; lia. }
  symmetry. apply (H []). reflexivity.
Qed.

Lemma nodup_zrange a b : NoDup (zrange a b).
Proof.
  unfold zrange. generalize (Z.to_nat (b - a)). intros n. revert a. induction n as [|n IH]; intros a; cbn [zseq]; constructor.
  - intros H. apply in_zseq in H. lia.
  - apply IH.
Qed.

Lemma nodup_le {X} (l l' : list X) : NoDup l -> incl l l' -> zlen l <= zlen l'.
Proof. intros N I. unfold zlen. apply inj_le. now apply NoDup_incl_length. Qed.

(** Counting by index: [h] is implied by, or implies, [P]. *)
Lemma index_at_least {X} (P : X -> Prop) (h : Z -> bool) (l : list X) n m :
  n <= zlen (filter h (zrange 0 m)) -> (forall k, 0 <= k < m -> h k = true -> exists x, zget l k = Some x /\ P x) -> at_least n P l.
Proof.
  intros Hn H. exists (filter h (zrange 0 m)). split; [apply NoDup_filter, nodup_zrange|]. split; [exact Hn|].
  intros k Hk. apply filter_In in Hk. rewrite in_zrange in Hk. now apply H.
Qed.

Lemma at_least_index {X} (P : X -> Prop) (h : Z -> bool) (l : list X) n m :
  at_least n P l -> (forall k x, zget l k = Some x -> P x -> 0 <= k < m /\ h k = true) -> n <= zlen (filter h (zrange 0 m)).
Proof.
  intros (ks & N & L & H) Hh. apply Z.le_trans with (zlen ks); [exact L|]. apply nodup_le; [exact N|].
  intros k Hk. destruct (H k Hk) as (x & E & Px). destruct (Hh k x E Px). apply filter_In. rewrite in_zrange. auto.
Qed.

Section Show.
Variable A : ray_arith.
Variable g : ray_grid A.
Variables v e w : R.

(** The point of cloud [c] with index [k] is seen by [S], and its counters are right. *)
Definition point_matches (c : cloud A) (S : sighting) (k : Z) (p : vec A) : Prop :=
  if vfinite A p then
    exists q bs, zget (sg_points S) k = Some (Some q) /\
      cast_point A g (c_max_range A c) (c_origin A c) (voxel_of A g (c_origin A c)) (c_to_grid A c p) = Some bs /\
      (surely_shown v e w (rg_nx A g) (rg_ny A g) (rg_nz A g) S q -> exists i, In (i, true) bs) /\
      forall i, in_grid A g i = true ->
        (forall b, In (i, b) bs -> may_pass v e w S i q) /\ (In (i, true) bs -> may_end v e w S i q) /\
        (surely_passes v e w S i q -> exists b, In (i, b) bs) /\ (surely_ends v e w S i q -> In (i, true) bs)
  else zget (sg_points S) k = Some None.
Definition cloud_matches (c : cloud A) (S : sighting) : Prop :=
  zlen (sg_points S) = zlen (c_points A c) /\ forall k p, zget (c_points A c) k = Some p -> point_matches c S k p.

Lemma hits_match c S k b : cloud_matches c S -> in_grid A g (fst b) = true -> 0 <= k < zlen (c_points A c) ->
  match point_work A g c k with Some w => existsb (bump_eqb b) w | None => false end = true ->
  exists q, zget (sg_points S) k = Some (Some q) /\ may_pass v e w S (fst b) q /\ (snd b = true -> may_end v e w S (fst b) q).
Proof.
  intros (HL & HM) Hi Hk H. destruct (proj2 (zget_some_iff (c_points A c) k) Hk) as (p & Ep).
  unfold point_work in H. rewrite Ep in H. cbn [obind] in H. specialize (HM k p Ep). unfold point_matches in HM.
  destruct (vfinite A p); [|discriminate]. destruct HM as (q & bs & Eq & Eb & _ & HM). rewrite Eb in H.
  apply existsb_exists in H. destruct H as (b' & Hb & E). apply bump_eqb_eq in E. subst b'.
  destruct (HM (fst b) Hi) as (M1 & M2 & _). exists q. split; [exact Eq|]. destruct b as (i, b); cbn [fst snd] in *.
  split; [exact (M1 b Hb)|]. intros ->. now apply M2.
Qed.

Lemma match_hits c S k q : cloud_matches c S -> zget (sg_points S) k = Some (Some q) ->
  0 <= k < zlen (c_points A c) /\ exists bs, point_work A g c k = Some bs /\ NoDup (map fst bs) /\ forall i, in_grid A g i = true ->
    (forall b, In (i, b) bs -> may_pass v e w S i q) /\ (surely_passes v e w S i q -> exists b, In (i, b) bs) /\
    (surely_ends v e w S i q -> In (i, true) bs).
Proof.
  intros (HL & HM) Eq. pose proof (zget_range _ _ _ Eq) as Hk. rewrite HL in Hk. split; [exact Hk|].
  destruct (proj2 (zget_some_iff (c_points A c) k) Hk) as (p & Ep). specialize (HM k p Ep). unfold point_matches in HM.
  destruct (point_work_some A g c k Hk) as (bs & Eb & N & _). exists bs. split; [exact Eb|]. split; [exact N|].
  unfold point_work in Eb. rewrite Ep in Eb. cbn [obind] in Eb. destruct (vfinite A p); [|congruence].
  destruct HM as (q' & bs' & Eq' & Eb' & _ & HM). rewrite Eq in Eq'. injection Eq' as <-. rewrite Eb in Eb'. injection Eb' as <-.
  intros i Hi. destruct (HM i Hi) as (M1 & M2 & M3 & M4). auto.
Qed.

Lemma zget_In {X} (l : list X) k x : zget l k = Some x -> In x l.
Proof. unfold zget. destruct (k <? 0); [easy|]. apply nth_error_In. Qed.

Lemma In_zget {X} (l : list X) x : In x l -> exists k, zget l k = Some x.
Proof.
  intros H. destruct (In_nth_error l x H) as (k & E). exists (Z.of_nat k). unfold zget.
  destruct (Z.of_nat k <? 0) eqn:Q; [lia|]. now rewrite Nat2Z.id.
Qed.

Lemma count_pos {X} (h : X -> bool) l : (exists x, In x l /\ h x = true) -> 0 < zlen (filter h l).
Proof. apply zlen_filter_pos. Qed.

Section Cloud.
Variables (c : cloud A) (S : sighting) (i : idx).
Hypothesis HM : cloud_matches c S.
Hypothesis Hi : in_grid A g i = true.

Lemma filled_may n : n <= points_counting A g c (i, true) -> at_least n (valid_and (may_end v e w S i)) (sg_points S).
Proof using HM Hi.
  intros H. apply (index_at_least _ _ _ _ _ H). intros k Hk Hh.
  destruct (hits_match c S k (i, true) HM Hi Hk Hh) as (q & E & _ & M). exists (Some q). split; [exact E|].
  exists q. split; [easy|]. now apply M.
Qed.

Lemma count_may b : 0 < points_counting A g c (i, b) -> exists q, In (Some q) (sg_points S) /\ may_pass v e w S i q /\ (b = true -> may_end v e w S i q).
Proof using HM Hi.
  intros H. apply zlen_filter_pos in H. destruct H as (k & Hk & Hh). apply in_zrange in Hk.
  destruct (hits_match c S k (i, b) HM Hi Hk Hh) as (q & E & M1 & M2). exists q. split; [exact (zget_In _ _ _ E)|]. split; assumption.
Qed.

Lemma filled_surely n : at_least n (valid_and (surely_ends v e w S i)) (sg_points S) -> n <= points_counting A g c (i, true).
Proof using HM Hi.
  intros H. apply (at_least_index _ _ _ _ _ H). intros k x E (q & -> & Hq).
  destruct (match_hits c S k q HM E) as (Hk & bs & Eb & _ & M). split; [exact Hk|]. rewrite Eb. apply existsb_exists.
  exists (i, true). split; [|now apply bump_eqb_eq]. now apply (M i Hi).
Qed.

Lemma passes_counted q : In (Some q) (sg_points S) -> surely_passes v e w S i q ->
  0 < points_counting A g c (i, false) \/ 0 < points_counting A g c (i, true).
Proof using HM Hi.
  intros Hq P. apply In_zget in Hq. destruct Hq as (k & E). destruct (match_hits c S k q HM E) as (Hk & bs & Eb & _ & M).
  destruct (M i Hi) as (_ & M2 & _). destruct (M2 P) as (b & Hb).
  assert (Q : 0 < points_counting A g c (i, b)).
  { apply count_pos. exists k. split; [now apply in_zrange|]. rewrite Eb. apply existsb_exists. exists (i, b).
    split; [exact Hb|now apply bump_eqb_eq]. }
  destruct b; auto.
Qed.

Lemma no_other : (forall p, In (Some p) (sg_points S) -> may_pass v e w S i p -> surely_ends v e w S i p) ->
  points_counting A g c (i, false) = 0.
Proof using HM Hi.
  intros H. destruct (Z.eq_dec (points_counting A g c (i, false)) 0) as [Q|Q]; [exact Q|exfalso].
  assert (P : 0 < points_counting A g c (i, false)) by (pose proof (counting_bounds A g c (i, false)); lia).
  apply zlen_filter_pos in P. destruct P as (k & Hk & Hh). apply in_zrange in Hk.
  destruct (hits_match c S k (i, false) HM Hi Hk Hh) as (q & E & M1 & _). cbn [fst] in M1.
  specialize (H q (zget_In _ _ _ E) M1). destruct (match_hits c S k q HM E) as (_ & bs & Eb & N & M).
  rewrite Eb in Hh. apply existsb_exists in Hh. destruct Hh as (b' & Hb & Q'). apply bump_eqb_eq in Q'. subst b'.
  destruct (M i Hi) as (_ & _ & M3). specialize (M3 H).
  clear - N Hb M3. induction bs as [|(j, b) bs IH]; [easy|]. cbn [map fst] in N. inversion N as [|x l N1 N2]; subst.
  cbn [In] in Hb, M3.
  assert (F : forall b', In (i, b') bs -> In i (map fst bs)) by (intros b' Hb'; apply in_map_iff; now exists (i, b')).
  destruct Hb as [Hb|Hb], M3 as [M3|M3].
  - congruence.
  - injection Hb as -> ->. exact (N1 (F _ M3)).
  - injection M3 as -> ->. exact (N1 (F _ Hb)).
  - exact (IH Hb N2 M3).
Qed.
End Cloud.

Lemma surely_may S i p : (0 <= e)%R -> (0 <= w)%R -> surely_ends v e w S i p -> may_end v e w S i p.
Proof.
  intros He Hw (U & (X & Y & Z)). split.
  - destruct (sg_range S); cbn [up_to] in *; [lra|easy].
  - split; [|split]; lra.
Qed.

Lemma Forall2_zget {X Y} (R : X -> Y -> Prop) l l' : Forall2 R l l' -> zlen l = zlen l' /\
  forall k x y, zget l k = Some x -> zget l' k = Some y -> R x y.
Proof.
  intros H. split.
  - induction H; unfold zlen in *; cbn [length]; lia.
  - unfold zget. intros k x y. destruct (k <? 0); [easy|]. generalize (Z.to_nat k). clear k. induction H as [|a b l l' Hab H IH]; intros [|n]; cbn.
    + easy.
    + easy.
    + intros E1 E2. injection E1 as <-. now injection E2 as <-.
    + apply IH.
Qed.

(** ** The map *)

Variable cls : Z -> Z -> option seen.
Variables outlier cameras : Z.
Hypothesis Hcls : forall f s, 0 <= f -> 0 <= s ->
  (cls f s = Some SeenFilled -> outlier <= s) /\ (cls f s = Some SeenFree -> 0 < f) /\
  (f = 0 -> outlier <= s -> cls f s = Some SeenFilled) /\ (0 < f -> s = 0 -> cls f s = Some SeenFree).
Hypothesis Hout : 0 < outlier.
Hypothesis Hcam : 0 < cameras.

Definition sees (x : seen) (i : idx) (c : cloud A) : bool :=
  match cls (points_counting A g c (i, false)) (points_counting A g c (i, true)) with Some y => seen_eqb x y | None => false end.

Lemma seen_eqb_eq x y : seen_eqb x y = true <-> x = y.
Proof. destruct x, y; easy. Qed.

Lemma sees_iff x i c : sees x i c = true <-> cls (points_counting A g c (i, false)) (points_counting A g c (i, true)) = Some x.
Proof.
  unfold sees. destruct (cls _ _) as [y|]; [|easy]. rewrite seen_eqb_eq. split; [now intros ->|]. now intros [= ->].
Qed.

Lemma map_shows clouds seen static g' :
  map_for g static -> Forall2 cloud_matches clouds seen -> voxelized A g cls cameras clouds static g' ->
  shows v e w outlier cameras seen static g'.
Proof using Hcls Hout Hcam.
  intros HF H2 (W' & D' & HV) i b Eb.
  assert (Hi : in_grid A g i = true).
  { apply gget_in_bounds in Eb. destruct HF as (_ & X & Y & Z). unfold in_grid. rewrite <- X, <- Y, <- Z. exact Eb. }
  destruct (HV i b Eb) as (V1 & V2 & V3 & V4). clear HV.
  destruct (Forall2_zget _ _ _ H2) as (HL & HZ).
  assert (HP : forall S, In S seen -> exists c, In c clouds /\ cloud_matches c S).
  { intros S HS. apply In_zget in HS. destruct HS as (k & E). pose proof (zget_range _ _ _ E) as Hk. rewrite <- HL in Hk.
    destruct (proj2 (zget_some_iff clouds k) Hk) as (c & Ec). exists c. split; [exact (zget_In _ _ _ Ec)|exact (HZ k c S Ec E)]. }
  assert (HP' : forall c, In c clouds -> exists S, In S seen /\ cloud_matches c S).
  { intros c HS. apply In_zget in HS. destruct HS as (k & E). pose proof (zget_range _ _ _ E) as Hk. rewrite HL in Hk.
    destruct (proj2 (zget_some_iff seen k) Hk) as (S & Ec). exists S. split; [exact (zget_In _ _ _ Ec)|exact (HZ k c S E Ec)]. }
  set (filled := clouds_seeing A g cls SeenFilled clouds i) in *. set (free := clouds_seeing A g cls SeenFree clouds i) in *.
  assert (N1 : 0 <= filled) by (unfold filled, clouds_seeing, zlen; lia).
  assert (N2 : 0 <= free) by (unfold free, clouds_seeing, zlen; lia).
  assert (Cb : forall c b, 0 <= points_counting A g c (i, b)) by (intros; apply counting_bounds).
  assert (FP : 0 < filled <-> exists c, In c clouds /\ sees SeenFilled i c = true) by apply zlen_filter_pos.
  assert (FR : free = zlen (filter (sees SeenFree i) clouds)) by reflexivity. rewrite count_at_index in FR.
  assert (FM : 0 < filled -> exists S, In S seen /\ at_least outlier (valid_and (may_end v e w S i)) (sg_points S)).
  { intros H. apply FP in H. destruct H as (c & Hc & H). apply sees_iff in H.
    destruct (Hcls _ _ (Cb c false) (Cb c true)) as (K & _). specialize (K H). destruct (HP' c Hc) as (S & HS & M).
    exists S. split; [exact HS|]. exact (filled_may c S i M Hi _ K). }
  assert (RM : forall n, n <= free -> at_least n (fun S => exists p, In (Some p) (sg_points S) /\ may_pass v e w S i p) seen).
  { intros n Hn. rewrite FR in Hn. apply (index_at_least _ _ _ _ _ Hn). intros k Hk Hh. unfold at_index in Hh.
    destruct (zget clouds k) as [c|] eqn:Ec; [|easy]. apply sees_iff in Hh.
    destruct (Hcls _ _ (Cb c false) (Cb c true)) as (_ & K & _). specialize (K Hh). rewrite HL in Hk.
    destruct (proj2 (zget_some_iff seen k) Hk) as (S & ES). exists S. split; [exact ES|].
    destruct (count_may c S i (HZ k c S Ec ES) Hi false K) as (q & Q1 & Q2 & _). now exists q. }
  destruct (occ_le b) eqn:Eo.
  2:{ exists b. split; [now apply V1|]. split; [easy|]. discriminate. }
  clear V1. assert (V : exists b', gget g' i = Some b' /\
    (0 < filled -> b' = one_bits) /\ (filled = 0 -> cameras <= free -> b' = zero_bits) /\ (filled = 0 -> free < cameras -> b' = half_bits)).
  { destruct (Z_lt_dec 0 filled) as [F|F]; [exists one_bits; split; [auto|]; split; [easy|]; split; intros; lia|].
    assert (F0 : filled = 0) by lia.
    destruct (Z_lt_dec free cameras) as [C|C]; [exists half_bits|exists zero_bits]; (split; [apply V3 || apply V4; auto; lia|]);
      (split; [intros; lia|]); split; intros; try easy; lia. }
  destruct V as (b' & E' & B1 & B2 & B3). exists b'. split; [exact E'|]. split; [discriminate|]. intros _.
  assert (Z1 : one_bits <> zero_bits) by discriminate. assert (Z2 : one_bits <> half_bits) by discriminate.
  assert (Z3 : zero_bits <> half_bits) by discriminate.
  assert (Cases : (0 < filled /\ b' = one_bits) \/ (filled = 0 /\ cameras <= free /\ b' = zero_bits) \/ (filled = 0 /\ free < cameras /\ b' = half_bits)).
  { destruct (Z_lt_dec 0 filled) as [F|F]; [left; auto|]. assert (F0 : filled = 0) by lia.
    destruct (Z_lt_dec free cameras) as [C|C]; [right; right; auto|right; left]. split; [auto|]. split; [lia|]. apply B2; auto. lia. }
  split; [destruct Cases as [(_ & ->)|[(_ & _ & ->)|(_ & _ & ->)]]; auto|].
  split; [|split; [|split; [|split]]].
  - intros ->. destruct Cases as [(F & _)|[(_ & _ & Q)|(_ & _ & Q)]]; [now apply FM|easy|easy].
  - intros ->. destruct Cases as [(_ & Q)|[(_ & F & _)|(_ & _ & Q)]]; [easy|now apply RM|easy].
  - intros (S & HS & HE & HO). apply B1, FP. destruct (HP S HS) as (c & Hc & M). exists c. split; [exact Hc|]. apply sees_iff.
    destruct (Hcls _ _ (Cb c false) (Cb c true)) as (_ & _ & K & _). apply K.
    + exact (no_other c S i M Hi HO).
    + exact (filled_surely c S i M Hi _ HE).
  - intros HA HN.
    assert (Z : forall c, In c clouds -> points_counting A g c (i, true) = 0).
    { intros c Hc. destruct (HP' c Hc) as (S & HS & M). pose proof (Cb c true) as C0.
      destruct (Z.eq_dec (points_counting A g c (i, true)) 0) as [Q|Q]; [exact Q|exfalso].
      destruct (count_may c S i M Hi true ltac:(lia)) as (q & Q1 & _ & Q3). exact (HN S q HS Q1 (Q3 eq_refl)). }
    assert (F0 : filled = 0).
    { destruct (Z.eq_dec filled 0) as [Q|Q]; [exact Q|exfalso]. assert (P : 0 < filled) by lia. apply FP in P.
      destruct P as (c & Hc & P). apply sees_iff in P. destruct (Hcls _ _ (Cb c false) (Cb c true)) as (K & _). specialize (K P).
      rewrite (Z c Hc) in K. lia. }
    apply B2; [exact F0|]. rewrite FR. apply (at_least_index _ _ _ _ _ HA). intros k S ES (q & Hq & P).
    pose proof (zget_range _ _ _ ES) as Hk. rewrite <- HL in Hk. split; [exact Hk|]. unfold at_index.
    destruct (proj2 (zget_some_iff clouds k) Hk) as (c & Ec). rewrite Ec. apply sees_iff.
    destruct (Hcls _ _ (Cb c false) (Cb c true)) as (_ & _ & _ & K). pose proof (Z c (zget_In _ _ _ Ec)) as Zc.
    apply K; [|exact Zc]. destruct (passes_counted c S i (HZ k c S Ec ES) Hi q Hq P) as [P'|P']; [exact P'|lia].
  - intros HN.
    assert (Z : forall c b, In c clouds -> points_counting A g c (i, b) = 0).
    { intros c b0 Hc. destruct (HP' c Hc) as (S & HS & M). pose proof (Cb c b0) as C0.
      destruct (Z.eq_dec (points_counting A g c (i, b0)) 0) as [Q|Q]; [exact Q|exfalso].
      destruct (count_may c S i M Hi b0 ltac:(lia)) as (q & Q1 & Q2 & _). exact (HN S q HS Q1 Q2). }
    assert (F0 : filled = 0).
    { destruct (Z.eq_dec filled 0) as [Q|Q]; [exact Q|exfalso]. assert (P : 0 < filled) by lia. apply FP in P.
      destruct P as (c & Hc & P). apply sees_iff in P. destruct (Hcls _ _ (Cb c false) (Cb c true)) as (K & _). specialize (K P).
      rewrite (Z c true Hc) in K. lia. }
    apply B3; [exact F0|]. destruct (Z_lt_dec free cameras) as [C|C]; [exact C|exfalso].
    destruct (RM 1 ltac:(lia)) as (ks & _ & L & HK). destruct ks as [|k ks]; [unfold zlen in L; cbn in L; lia|].
    destruct (HK k (or_introl eq_refl)) as (S & ES & q & Hq & P). exact (HN S q (zget_In _ _ _ ES) Hq P).
Qed.
End Show.

Lemma classify_good enough outlier f s : 0 < outlier -> 0 <= f -> 0 <= s ->
  let cls := classify enough outlier in
  (cls f s = Some SeenFilled -> outlier <= s) /\ (cls f s = Some SeenFree -> 0 < f) /\
  (f = 0 -> outlier <= s -> cls f s = Some SeenFilled) /\ (0 < f -> s = 0 -> cls f s = Some SeenFree).
Proof.
  intros Ho Hf Hs. cbv zeta. unfold classify.
  destruct (outlier <=? s) eqn:E1; destruct (0 <? f) eqn:E2; cbn [andb].
  - destruct (0 <? s) eqn:E3; cbn [andb]; [|split; [|split; [|split]]; intros; try easy; lia].
    destruct (chk32 (f + s)) as [t|]; cbn [obind]; split; try (intros; lia); (split; [intros; lia|]); split; intros; lia.
  - destruct (0 <? s) eqn:E3; split; try (intros; lia); (split; [intros; easy|]); split; intros; try easy; lia.
  - change (0 <? 0) with false. cbn [andb]. split; [easy|]. split; [intros; lia|]. split; intros; [lia|easy].
  - change (0 <? 0) with false. cbn [andb]. split; [easy|]. split; [easy|]. split; intros; lia.
Qed.
