(** C85: estimated distances of generated fields and the distances to voxels. *)
From Coq Require Import ZArith Reals List Lia Lra Bool.
From Flocq Require Import Core BinarySingleNaN.
From Verif Require Import Util Grid FloatModel EdtSpec EdtFloat SdfModel SdfSpec SdfProofs SdfLaws SdfTop SdfFloatSpec
  SdfFloatProofs SdfSingleModel SdfSingleProofs SdfQueryModel SdfQueryArith SdfQuerySpec
  SdfEstimateProofs ClearanceSpec ClearanceProofs PropsSingle.
Import ListNotations.
Local Open Scope Z_scope.

(** Fields in exact arithmetic hold the distances themselves. *)
Lemma exact_accurate res nx ny nz filled (border : bool) g f : (0 < res)%R -> 0 < nx -> 0 < ny -> 0 < nz ->
  sdf_exact res true border nx ny nz filled = Some g -> reals_of (fun v d => v = XFin d) g f ->
  accurate 0 res nx ny nz filled border f /\ gwf f /\ g_nx f = nx /\ g_ny f = ny /\ g_nz f = nz.
Proof.
  intros Hr Hx Hy Hz E (W & Dx & Dy & Dz & V).
  destruct (sdf_exact_ok res nx ny nz filled border Hr Hx Hy Hz) as (g' & E' & _ & Gx & Gy & Gz & _).
  rewrite E in E'. injection E' as <-. split; [|split; [easy|lia]].
  apply sdf_field in E; try easy. intros i Hi. destruct (E i Hi) as (v & Gv & m & Hm & Ev).
  destruct (V i v Gv) as (d & Gd & Hd). rewrite Hd in Ev. destruct m as [m|]; [|destruct (filled i); discriminate].
  destruct Hm as ((j & Tj & Sj) & M). exists d, j. split; [easy|]. split; [easy|]. split.
  - intros k Tk. unfold cell_dist. rewrite Sj. apply Rmult_le_compat_l; [lra|]. apply sqrt_le_1_alt, IZR_le. now apply M.
  - unfold cell_dist. rewrite Sj. cbn [metric xopp] in Ev.
    destruct (filled i); injection Ev as ->; rewrite Rminus_eq_0, Rabs_R0; lra.
Qed.

(** Between the outermost cell centres. *)
Theorem c85_exact res nx ny nz filled (border : bool) g f to_grid to_world rotate p e :
  (0 < res)%R -> 0 < nx -> 0 < ny -> 0 < nz ->
  sdf_exact res true border nx ny nz filled = Some g -> reals_of (fun v d => v = XFin d) g f ->
  estimate real_query (real_field f res to_grid to_world rotate) p = Answer e ->
  within_centres res nx (fst (fst (to_grid p))) -> within_centres res ny (snd (fst (to_grid p))) ->
  within_centres res nz (snd (to_grid p)) ->
  clearance 0 res nx ny nz filled border e ((sqrt 3 - 1 / 2) * res) (sqrt 3 / 2 * res) (to_grid p).
Proof.
  intros Hr Hx Hy Hz E V Ee Wx Wy Wz.
  destruct (exact_accurate _ _ _ _ _ _ _ _ Hr Hx Hy Hz E V) as (A & W & Fx & Fy & Fz).
  replace ((sqrt 3 - 1 / 2) * res)%R with ((1 + 0) * (sqrt 3 * res) - res / 2)%R by field.
  exact (estimate_clearance 0 res nx ny nz filled border f Hr ltac:(lra) ltac:(lia) ltac:(lia) ltac:(lia) A W Fx Fy Fz
    to_grid to_world rotate p e Ee Wx Wy Wz).
Qed.
Print Assumptions c85_exact.

(** Wherever the field answers, the outer halves of boundary voxels included. *)
Theorem c85_everywhere res nx ny nz filled (border : bool) g f to_grid to_world rotate p e :
  (0 < res)%R -> 0 < nx -> 0 < ny -> 0 < nz ->
  sdf_exact res true border nx ny nz filled = Some g -> reals_of (fun v d => v = XFin d) g f ->
  estimate real_query (real_field f res to_grid to_world rotate) p = Answer e ->
  clearance 0 res nx ny nz filled border e (6 * res) (6 * res) (to_grid p).
Proof.
  intros Hr Hx Hy Hz E V Ee. destruct (exact_accurate _ _ _ _ _ _ _ _ Hr Hx Hy Hz E V) as (A & W & Fx & Fy & Fz).
  exact (estimate_everywhere res nx ny nz filled border f Hr ltac:(lia) ltac:(lia) ltac:(lia) A W Fx Fy Fz
    to_grid to_world rotate p e Ee).
Qed.
Print Assumptions c85_everywhere.

Lemma double_accurate (res oob : b64) nx ny nz filled (border : bool) g f :
  is_finite res = true -> (bpow radix2 (-1022) <= B2R res)%R ->
  0 < nx <= B25 - 2 -> 0 < ny <= B25 - 2 -> 0 < nz <= B25 - 2 ->
  sdf_binary64 res oob true border nx ny nz filled = Some g ->
  reals_of (fun v d => is_finite v = true /\ d = B2R v) g f ->
  accurate (bpow radix2 (-51)) (B2R res) nx ny nz filled border f /\ gwf f /\ g_nx f = nx /\ g_ny f = ny /\ g_nz f = nz.
Proof.
  intros F P Hx Hy Hz E (W & Dx & Dy & Dz & V). set (r := B2R res).
  assert (Pos : (0 < r)%R) by (pose proof (bpow_gt_0 radix2 (-1022)); unfold r; lra).
  destruct (sdf_binary64_ok res F Pos oob nx ny nz filled border Hx Hy Hz) as (g' & E' & Wg & Gx & Gy & Gz & _).
  rewrite E in E'. injection E' as <-. split; [|now rewrite Dx, Dy, Dz].
  intros i Hi. destruct (gget_some g i Wg) as (v & Gv).
  { apply in_bounds_iff. rewrite Gx, Gy, Gz. now destruct i as [[x y] z]. }
  destruct (V i v Gv) as (d & Gd & Fv & ->).
  destruct (c81_accuracy_double res oob nx ny nz filled border g i v F P Hx Hy Hz E Hi Gv Fv) as (j & Tj & M & B).
  exists (B2R v), j. easy.
Qed.

(** With the distances that are stored as double ... *)
Theorem c85_double (res oob : b64) nx ny nz filled (border : bool) g f to_grid to_world rotate p e :
  is_finite res = true -> (bpow radix2 (-1022) <= B2R res)%R ->
  0 < nx <= B25 - 2 -> 0 < ny <= B25 - 2 -> 0 < nz <= B25 - 2 ->
  sdf_binary64 res oob true border nx ny nz filled = Some g ->
  reals_of (fun v d => is_finite v = true /\ d = B2R v) g f ->
  let r := B2R res in
  estimate real_query (real_field f r to_grid to_world rotate) p = Answer e ->
  within_centres r nx (fst (fst (to_grid p))) -> within_centres r ny (snd (fst (to_grid p))) ->
  within_centres r nz (snd (to_grid p)) ->
  let eps := bpow radix2 (-51) in
  clearance eps r nx ny nz filled border e ((1 + eps) * (sqrt 3 * r) - r / 2) (sqrt 3 / 2 * r) (to_grid p).
Proof.
  intros F P Hx Hy Hz E V r Ee Wx Wy Wz eps.
  assert (Pos : (0 < r)%R) by (pose proof (bpow_gt_0 radix2 (-1022)); unfold r; lra).
  destruct (double_accurate _ _ _ _ _ _ _ _ _ F P Hx Hy Hz E V) as (A & W & Fx & Fy & Fz).
  assert (He : (0 <= eps <= 1 / 2)%R).
  { unfold eps. split; [apply bpow_ge_0|]. apply Rle_trans with (bpow radix2 (-1)); [apply bpow_le; lia|simpl; lra]. }
  exact (estimate_clearance eps r nx ny nz filled border f Pos He ltac:(lia) ltac:(lia) ltac:(lia) A W
    Fx Fy Fz to_grid to_world rotate p e Ee Wx Wy Wz).
Qed.
Print Assumptions c85_double.

Lemma float_accurate (res : b64) (oob : b32) nx ny nz filled (border : bool) g f :
  is_finite res = true -> (bpow radix2 (-126) <= B2R res)%R ->
  0 < nx <= B25 - 2 -> 0 < ny <= B25 - 2 -> 0 < nz <= B25 - 2 ->
  sdf_binary32 res oob true border nx ny nz filled = Some g ->
  reals_of (fun v d => is_finite v = true /\ d = B2R v) g f ->
  accurate (bpow radix2 (-23)) (B2R res) nx ny nz filled border f /\ gwf f /\ g_nx f = nx /\ g_ny f = ny /\ g_nz f = nz.
Proof.
  intros F P Hx Hy Hz E (W & Dx & Dy & Dz & V). set (r := B2R res).
  assert (Pos : (0 < r)%R) by (pose proof (bpow_gt_0 radix2 (-126)); unfold r; lra).
  assert (P' : (bpow radix2 (-150) < r)%R).
  { apply Rlt_le_trans with (2 := P). apply bpow_lt. lia. }
  destruct (sdf_binary32_ok res F Pos P' oob nx ny nz filled border Hx Hy Hz) as (g' & E' & Wg & Gx & Gy & Gz & _).
  rewrite E in E'. injection E' as <-. split; [|now rewrite Dx, Dy, Dz].
  intros i Hi. destruct (gget_some g i Wg) as (v & Gv).
  { apply in_bounds_iff. rewrite Gx, Gy, Gz. now destruct i as [[x y] z]. }
  destruct (V i v Gv) as (d & Gd & Fv & ->).
  destruct (c81_accuracy_float res oob nx ny nz filled border g i v F P Hx Hy Hz E Hi Gv Fv) as (j & Tj & M & B).
  exists (B2R v), j. easy.
Qed.

(** ... and as float. *)
Theorem c85_float (res : b64) (oob : b32) nx ny nz filled (border : bool) g f to_grid to_world rotate p e :
  is_finite res = true -> (bpow radix2 (-126) <= B2R res)%R ->
  0 < nx <= B25 - 2 -> 0 < ny <= B25 - 2 -> 0 < nz <= B25 - 2 ->
  sdf_binary32 res oob true border nx ny nz filled = Some g ->
  reals_of (fun v d => is_finite v = true /\ d = B2R v) g f ->
  let r := B2R res in
  estimate real_query (real_field f r to_grid to_world rotate) p = Answer e ->
  within_centres r nx (fst (fst (to_grid p))) -> within_centres r ny (snd (fst (to_grid p))) ->
  within_centres r nz (snd (to_grid p)) ->
  let eps := bpow radix2 (-23) in
  clearance eps r nx ny nz filled border e ((1 + eps) * (sqrt 3 * r) - r / 2) (sqrt 3 / 2 * r) (to_grid p).
Proof.
  intros F P Hx Hy Hz E V r Ee Wx Wy Wz eps.
  assert (Pos : (0 < r)%R) by (pose proof (bpow_gt_0 radix2 (-126)); unfold r; lra).
  destruct (float_accurate _ _ _ _ _ _ _ _ _ F P Hx Hy Hz E V) as (A & W & Fx & Fy & Fz).
  assert (He : (0 <= eps <= 1 / 2)%R).
  { unfold eps. split; [apply bpow_ge_0|]. apply Rle_trans with (bpow radix2 (-1)); [apply bpow_le; lia|simpl; lra]. }
  exact (estimate_clearance eps r nx ny nz filled border f Pos He ltac:(lia) ltac:(lia) ltac:(lia) A W
    Fx Fy Fz to_grid to_world rotate p e Ee Wx Wy Wz).
Qed.
Print Assumptions c85_float.

(** Two voxels of size 1, the first one filled: the field, and its estimate at a point
    between the centres. *)
Example c85_case : let filled c := ix c =? 0 in
  exists g f e, sdf_exact 1 true false 2 1 1 filled = Some g /\ reals_of (fun v d => v = XFin d) g f /\
    estimate real_query (real_field f 1 fst (fun v => v) (fun v => v)) ((3 / 4, 1 / 2, 1 / 2)%R, 1%R) = Answer e /\
    within_centres 1 2 (3 / 4) /\ within_centres 1 1 (1 / 2).
Proof.
  intros filled. destruct (sdf_exact_ok 1 2 1 1 filled false ltac:(lra) ltac:(lia) ltac:(lia) ltac:(lia))
    as (g & E & W & Gx & Gy & Gz & _).
  assert (Fin : forall i v, gget g i = Some v -> exists d, v = XFin d).
  { intros i v Gv. assert (Hi : in_box 2 1 1 i).
    { pose proof (gget_in_bounds _ _ _ Gv) as Hb. destruct i as [[x y] z]. apply in_bounds_iff in Hb.
      rewrite Gx, Gy, Gz in Hb. exact Hb. }
    destruct (sdf_uniform 1 2 1 1 filled g i v ltac:(lra) ltac:(lia) ltac:(lia) ltac:(lia) E Hi Gv) as (_ & _ & H).
    apply H; [exists (0, 0, 0)|exists (1, 0, 0)]; now repeat split. }
  destruct (gget_some g (0, 0, 0) W) as (v0 & G0); [apply in_bounds_iff; lia|].
  destruct (gget_some g (1, 0, 0) W) as (v1 & G1); [apply in_bounds_iff; lia|].
  destruct (Fin _ _ G0) as (d0 & ->), (Fin _ _ G1) as (d1 & ->).
  set (f := mkGrid 2 1 1 [d0; d1]). exists g, f.
  assert (Wf : gwf f) by (repeat split; reflexivity).
  exists (blend3 f 1 (voxels 1 (3 / 4, 1 / 2, 1 / 2)%R)). split; [exact E|]. split; [|split; [|split]].
  - split; [exact Wf|]. split; [easy|]. split; [easy|]. split; [easy|]. intros [[x y] z] v Gv.
    pose proof (gget_in_bounds _ _ _ Gv) as Hb. apply in_bounds_iff in Hb.
    assert (y = 0) by lia. assert (z = 0) by lia. subst. assert (H : x = 0 \/ x = 1) by lia.
    destruct H as [-> | ->]; [exists d0|exists d1]; split; try reflexivity; congruence.
  - apply estimate_blend; [lra|exact Wf|]. repeat split; cbn [fst snd g_nx g_ny g_nz f]; lra.
  - right. lra.
  - now left.
Qed.
