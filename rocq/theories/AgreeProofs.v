(** Maps that show the same sensors agree where these decide. *)
From Coq Require Import ZArith Reals List Bool Lia Lra.
From Flocq Require Import Core BinarySingleNaN.
From Verif Require Import Util Grid SdfSpec FloatModel FilterModel Occ RaycastModel RayGeoSpec RayRoundSpec RayFloatModel PoseModel VoxelRoundSpec
  VoxelShowProofs PoseProofs VoxelRoundProofs AgreeSpec.
Import ListNotations.
Local Open Scope R_scope.

Lemma shows_agree v e w outlier cameras seen static g g' i b : shows v e w outlier cameras seen static g -> shows v e w outlier cameras seen static g' ->
  gget static i = Some b -> clear_cut v e w outlier cameras seen static i -> gget g i = gget g' i.
Proof.
  intros H H' Hi C. destruct (H i b Hi) as (x & Ex & X1 & X2). destruct (H' i b Hi) as (y & Ey & Y1 & Y2). rewrite Ex, Ey. f_equal.
  destruct (occ_le b) eqn:Eb.
  - destruct (X2 eq_refl) as (_ & _ & _ & X3 & X4 & X5). destruct (Y2 eq_refl) as (_ & _ & _ & Y3 & Y4 & Y5).
    destruct C as [C|[C|[(C1 & C2)|C]]].
    + rewrite (C b Hi) in Eb. discriminate.
    + rewrite (X3 C), (Y3 C). reflexivity.
    + rewrite (X4 C1 C2), (Y4 C1 C2). reflexivity.
    + rewrite (X5 C), (Y5 C). reflexivity.
  - rewrite (X1 eq_refl), (Y1 eq_refl). reflexivity.
Qed.

(** The same sensor and points, each coordinate moved by at most [d]. *)
Definition moved_point (d : R) (p q : option pt) : Prop :=
  match p, q with Some p, Some q => close d p q | None, None => True | _, _ => False end.
Definition moved (d : R) (S S' : sighting) : Prop :=
  close d (sg_origin S) (sg_origin S') /\ Forall2 (moved_point d) (sg_points S) (sg_points S') /\ sg_range S = sg_range S'.

Lemma moved_in d l l' q : Forall2 (moved_point d) l l' -> In (Some q) l' -> exists p, In (Some p) l /\ close d p q.
Proof.
  induction 1 as [|x y l l' H _ IH]; [intros []|]. intros [ -> |Hi].
  - destruct x as [p|]; [|contradiction]. exists p. split; [now left|exact H].
  - destruct (IH Hi) as (p & Hp & C). exists p. split; [now right|exact C].
Qed.

Lemma moved_in' d l l' p : Forall2 (moved_point d) l l' -> In (Some p) l -> exists q, In (Some q) l' /\ close d p q.
Proof.
  induction 1 as [|x y l l' H _ IH]; [intros []|]. intros [ -> |Hi].
  - destruct y as [q|]; [|contradiction]. exists q. split; [now left|exact H].
  - destruct (IH Hi) as (q & Hq & C). exists q. split; [now right|exact C].
Qed.

Lemma Forall2_get {X Y} (R : X -> Y -> Prop) l l' k x : Forall2 R l l' -> zget l k = Some x -> exists y, zget l' k = Some y /\ R x y.
Proof.
  intros H. unfold zget. destruct (k <? 0)%Z; [discriminate|]. generalize (Z.to_nat k). clear k. induction H as [|a b l l' Hab H IH]; intros [|n]; cbn; try discriminate.
  - intros E. injection E as <-. exists b. split; [reflexivity|exact Hab].
  - apply IH.
Qed.

Lemma at_least_map {X Y} (R : X -> Y -> Prop) (P : X -> Prop) (Q : Y -> Prop) l l' n : Forall2 R l l' -> (forall x y, R x y -> P x -> Q y) ->
  at_least n P l -> at_least n Q l'.
Proof.
  intros F H (ks & N & L & K). exists ks. split; [exact N|]. split; [exact L|]. intros k Hk. destruct (K k Hk) as (x & Ex & Px).
  destruct (Forall2_get R l l' k x F Ex) as (y & Ey & Rxy). exists y. split; [exact Ey|exact (H x y Rxy Px)].
Qed.

Lemma Forall2_flip' {X Y} (R : X -> Y -> Prop) l l' : Forall2 R l l' -> Forall2 (fun y x => R x y) l' l.
Proof. induction 1; constructor; assumption. Qed.

Lemma Forall2_in {X Y} (R : X -> Y -> Prop) l l' x : Forall2 R l l' -> In x l -> exists y, In y l' /\ R x y.
Proof.
  induction 1 as [|a b l l' H _ IH]; [intros []|]. intros [ -> |Hi]; [exists b; split; [now left|exact H]|].
  destruct (IH Hi) as (y & Hy & C). exists y. split; [now right|exact C].
Qed.

Section Move.
Variables (v e e' w w' d : R).
Hypothesis He : e + d <= e'.
Hypothesis Hw : w + 4 * d <= w'.

Lemma may_end_moves S S' i p q : moved d S S' -> close d p q -> may_end v e w S i p -> may_end v e' w' S' i q.
Proof using He Hw.
  intros (O & _ & R) C (H1 & H2). split; [|exact (near_close v e d e' i p q C He H2)]. rewrite <- R.
  eapply up_to_le; [exact H1|]. pose proof (dist_close d _ _ _ _ (close_sym _ _ _ O) (close_sym _ _ _ C)). lra.
Qed.

Lemma surely_ends_moves S S' i p q : moved d S S' -> close d p q -> surely_ends v e' w' S' i q -> surely_ends v e w S i p.
Proof using He Hw.
  intros (O & _ & R) C (H1 & H2). split; [|exact (deep_close v e d e' i p q C He H2)]. rewrite R.
  eapply up_to_le; [exact H1|]. pose proof (dist_close d _ _ _ _ O C). lra.
Qed.

Lemma part_close t o o' p q : 0 <= t <= 1 -> 0 <= d -> close d o o' -> close d p q -> t * dist o' q <= t * dist o p + 4 * d.
Proof using.
  intros Ht Hd O C. pose proof (dist_close d _ _ _ _ (close_sym _ _ _ O) (close_sym _ _ _ C)) as D.
  apply Rle_trans with (t * (dist o p + 4 * d)); [apply Rmult_le_compat_l; lra|].
  assert (t * (4 * d) <= 1 * (4 * d)) by (apply Rmult_le_compat_r; lra). lra.
Qed.

Lemma close_pos p q : close d p q -> 0 <= d.
Proof using. intros (H & _). eapply Rle_trans; [apply Rabs_pos|exact H]. Qed.

Lemma may_pass_moves S S' i p q : moved d S S' -> close d p q -> may_pass v e w S i p -> may_pass v e' w' S' i q.
Proof using He Hw.
  intros (O & _ & R) C (t & Ht & H1 & H2). exists t. split; [exact Ht|].
  split; [|exact (near_close v e d e' i _ _ (along_close d _ _ _ _ t Ht O C) He H2)]. rewrite <- R.
  eapply up_to_le; [exact H1|]. pose proof (part_close t _ _ _ _ Ht (close_pos _ _ C) O C). lra.
Qed.

Lemma surely_passes_moves S S' i p q : moved d S S' -> close d p q -> surely_passes v e' w' S' i q -> surely_passes v e w S i p.
Proof using He Hw.
  intros (O & _ & R) C (t & Ht & H1 & H2). exists t. split; [exact Ht|].
  split; [|exact (deep_close v e d e' i _ _ (along_close d _ _ _ _ t Ht O C) He H2)]. rewrite R.
  eapply up_to_le; [exact H1|]. pose proof (part_close t _ _ _ _ Ht (close_pos _ _ C) (close_sym _ _ _ O) (close_sym _ _ _ C)). lra.
Qed.

Lemma valid_and_moves (P Q : pt -> Prop) x y : moved_point d x y -> (forall p q, close d p q -> P p -> Q q) -> valid_and P x -> valid_and Q y.
Proof using.
  intros M H (p & -> & Hp). destruct y as [q|]; [|contradiction]. exists q. split; [reflexivity|exact (H p q M Hp)].
Qed.

Lemma valid_and_moves' (P Q : pt -> Prop) x y : moved_point d x y -> (forall p q, close d p q -> Q q -> P p) -> valid_and Q y -> valid_and P x.
Proof using.
  intros M H (p & -> & Hp). destruct x as [q|]; [|contradiction]. exists q. split; [reflexivity|exact (H q p M Hp)].
Qed.

Lemma shows_moves outlier cameras seen seen' static g : Forall2 (moved d) seen seen' ->
  shows v e w outlier cameras seen static g -> shows v e' w' outlier cameras seen' static g.
Proof using He Hw.
  intros F H i b Hi. destruct (H i b Hi) as (x & Ex & X1 & X2). exists x. split; [exact Ex|]. split; [exact X1|].
  intros Eb. destruct (X2 Eb) as (X3 & X4 & X5 & X6 & X7 & X8). split; [exact X3|].
  split; [|split; [|split; [|split]]].
  - intros E. destruct (X4 E) as (S & HS & L). destruct (Forall2_in _ _ _ _ F HS) as (S' & HS' & M). exists S'. split; [exact HS'|].
    refine (at_least_map _ _ _ _ _ _ (proj1 (proj2 M)) _ L). intros p q Mp. apply valid_and_moves with (1 := Mp).
    intros p' q' C. exact (may_end_moves S S' i p' q' M C).
  - intros E. refine (at_least_map _ _ _ _ _ _ F _ (X5 E)). intros S S' M (p & Hp & P).
    destruct (moved_in' d _ _ p (proj1 (proj2 M)) Hp) as (q & Hq & C). exists q. split; [exact Hq|exact (may_pass_moves S S' i p q M C P)].
  - intros (S' & HS' & L & O). apply X6. destruct (Forall2_in _ _ _ _ (Forall2_flip' _ _ _ F) HS') as (S & HS & M). exists S. split; [exact HS|]. split.
    + refine (at_least_map _ _ _ _ _ _ (Forall2_flip' _ _ _ (proj1 (proj2 M))) _ L). intros q p Mp. apply valid_and_moves' with (1 := Mp).
      intros p' q' C. exact (surely_ends_moves S S' i p' q' M C).
    + intros p Hp P. destruct (moved_in' d _ _ p (proj1 (proj2 M)) Hp) as (q & Hq & C).
      exact (surely_ends_moves S S' i p q M C (O q Hq (may_pass_moves S S' i p q M C P))).
  - intros L O. apply X7.
    + refine (at_least_map _ _ _ _ _ _ (Forall2_flip' _ _ _ F) _ L). intros S' S M (q & Hq & Q).
      destruct (moved_in d _ _ q (proj1 (proj2 M)) Hq) as (p & Hp & C). exists p. split; [exact Hp|exact (surely_passes_moves S S' i p q M C Q)].
    + intros S p HS Hp P. destruct (Forall2_in _ _ _ _ F HS) as (S' & HS' & M). destruct (moved_in' d _ _ p (proj1 (proj2 M)) Hp) as (q & Hq & C).
      exact (O S' q HS' Hq (may_end_moves S S' i p q M C P)).
  - intros O. apply X8. intros S p HS Hp P. destruct (Forall2_in _ _ _ _ F HS) as (S' & HS' & M).
    destruct (moved_in' d _ _ p (proj1 (proj2 M)) Hp) as (q & Hq & C). exact (O S' q HS' Hq (may_pass_moves S S' i p q M C P)).
Qed.
End Move.

Lemma moved_refl d S : 0 <= d -> moved d S S.
Proof.
  intros Hd. assert (C : forall p, close d p p) by (intros p; unfold close; rewrite !Rminus_diag_eq, Rabs_R0 by reflexivity; auto).
  split; [apply C|]. split; [|reflexivity]. induction (sg_points S) as [|[p|] l IH]; constructor; [apply C|exact IH|exact I|exact IH].
Qed.

Lemma Forall2_refl' {X} (R : X -> X -> Prop) l : (forall x, R x x) -> Forall2 R l l.
Proof. intros H. induction l; constructor; auto. Qed.

(** Widening the margins. *)
Lemma shows_weaken v e e' w w' outlier cameras seen static g : e <= e' -> w <= w' ->
  shows v e w outlier cameras seen static g -> shows v e' w' outlier cameras seen static g.
Proof.
  intros He Hw. apply (shows_moves v e e' w w' 0); [lra|lra|]. apply Forall2_refl'. intros S. apply moved_refl. lra.
Qed.

(** Points moved by rounding them to floats. *)
Lemma placed_close (A : ray_arith) fin (val : rT A -> R) s X d p q : tame A fin val s X -> 0 <= d -> close d p q ->
  close (6 * d) (placed A val X p) (placed A val X q).
Proof.
  intros T Hd (C1 & C2 & C3).
  assert (P : forall a x, Rabs a <= 2 -> Rabs x <= d -> Rabs (a * x) <= 2 * d).
  { intros a x Ha Hx. rewrite Rabs_mult. apply Rmult_le_compat; try apply Rabs_pos; assumption. }
  assert (Q : forall a b, Rabs (px a) <= 2 -> Rabs (py a) <= 2 -> Rabs (pz a) <= 2 -> Rabs (rdot a p + b - (rdot a q + b)) <= 6 * d).
  { intros a b H1 H2 H3. unfold rdot. pose proof (P _ _ H1 C1) as P1. pose proof (P _ _ H2 C2) as P2. pose proof (P _ _ H3 C3) as P3.
    apply Rabs_le_inv in P1, P2, P3. apply Rabs_le. lra. }
  destruct (T _ (or_introl eq_refl)) as (Tx & _). destruct (T _ (or_intror (or_introl eq_refl))) as (Ty & _).
  destruct (T _ (or_intror (or_intror eq_refl))) as (Tz & _).
  unfold placed, close. cbn [px py pz fst snd]. split; [|split]; apply Q; unfold reals; cbn [px py pz fst snd]; apply Tx || apply Ty || apply Tz; auto.
Qed.

Lemma cast_finite (y : b64) : is_finite y = false -> is_finite (b32_of_b64 y) = false.
Proof. destruct y; try discriminate; reflexivity. Qed.

Lemma cast_sighting fl fl32 (gw : pose (double_ray fl)) (c : wrapped fl fl32) s range :
  bpow radix2 (-30) <= s <= bpow radix2 34 -> w_float _ _ c = map (cast_vec fl fl32) (w_double _ _ c) ->
  let A := double_ray fl in
  let B := float32_ray fl32 in
  tame A is_finite B2R s gw -> tame A is_finite B2R s (w_pose _ _ c) ->
  (forall p, In p (w_double _ _ c) -> vfinite A p = true -> within s (reals A B2R p)) ->
  moved (72 * (bpow radix2 (-24) * s)) (sighting_of A B B2R B2R gw (w_pose _ _ c) (w_float _ _ c) range)
    (sighting_of A A B2R B2R gw (w_pose _ _ c) (w_double _ _ c) range).
Proof.
  intros Hs Ef A B HG HX Hp. pose proof (bpow_gt_0 radix2 (-30)) as B30. pose proof (bpow_gt_0 radix2 (-24)) as B24.
  assert (D0 : 0 <= bpow radix2 (-24) * s) by (apply Rmult_le_pos; lra).
  assert (Eta : bpow radix2 (-149) <= bpow radix2 (-24) * s).
  { apply Rle_trans with (bpow radix2 (-24) * bpow radix2 (-30)); [rewrite <- bpow_plus; apply bpow_le; lia|]. apply Rmult_le_compat_l; lra. }
  set (us := bpow radix2 (-24) * s) in *.
  assert (Cast : forall y : b64, is_finite y = true -> Rabs (B2R y) <= s -> is_finite (b32_of_b64 y) = true /\ Rabs (B2R (b32_of_b64 y) - B2R y) <= 2 * us).
  { intros y F H. destruct (cast_err y F) as (F' & E').
    - eapply Rle_trans; [exact H|]. eapply Rle_trans; [apply Hs|]. apply bpow_le; lia.
    - split; [exact F'|]. eapply Rle_trans; [exact E'|].
      assert (bpow radix2 (-24) * Rabs (B2R y) <= us) by (apply Rmult_le_compat_l; lra). lra. }
  split; [|split; [|reflexivity]].
  - unfold sighting_of. cbn [sg_origin]. unfold close. rewrite !Rminus_diag_eq, Rabs_R0 by reflexivity. repeat split; lra.
  - unfold sighting_of. cbn [sg_points]. rewrite Ef, map_map. clear Ef.
    assert (Hp' : Forall (fun p => vfinite A p = true -> within s (reals A B2R p)) (w_double _ _ c)) by (apply Forall_forall; exact Hp).
    clear Hp. induction Hp' as [|p l H _ IH]; cbn [map]; [constructor|]. constructor; [|exact IH]. clear IH.
    destruct p as ((x, y), z). unfold vfinite in *. unfold cast_vec. cbn [vx vy vz fst snd] in *.
    change (r_finite B) with (@is_finite 24 128). change (r_finite A) with (@is_finite 53 1024) in *.
    destruct (is_finite x) eqn:Fx; [|rewrite (cast_finite x Fx); exact I].
    destruct (is_finite y) eqn:Fy; [|rewrite (cast_finite y Fy), andb_false_r; exact I].
    destruct (is_finite z) eqn:Fz; [|rewrite (cast_finite z Fz), andb_false_r; exact I].
    destruct (H eq_refl) as (H1 & H2 & H3). unfold reals in H1, H2, H3. cbn [px py pz vx vy vz fst snd] in H1, H2, H3.
    destruct (Cast x Fx H1) as (Gx & Cx). destruct (Cast y Fy H2) as (Gy & Cy). destruct (Cast z Fz H3) as (Gz & Cz).
    rewrite Gx, Gy, Gz. cbn [andb moved_point]. replace (72 * us) with (6 * (6 * (2 * us))) by ring.
    apply (placed_close A is_finite B2R s gw); [exact HG|lra|]. apply (placed_close A is_finite B2R s (w_pose _ _ c)); [exact HX|lra|].
    unfold reals. cbn [vx vy vz fst snd]. split; [exact Cx|]. split; [exact Cy|exact Cz].
Qed.
