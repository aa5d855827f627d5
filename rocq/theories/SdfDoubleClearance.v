(** Size of the stored distances, and distances reported with an error. *)
From Coq Require Import ZArith Reals List Bool Lia Lra Psatz.
From Flocq Require Import Core BinarySingleNaN.
From Verif Require Import Util Grid FloatModel EdtSpec SdfModel SdfSpec SdfLaws SdfTop EdtFloat SdfFloatSpec SdfFloatProofs SdfSingleModel SdfSingleProofs SdfQueryArith SdfQuerySpec ClearanceSpec ClearanceProofs
  SdfProofs SdfLaws SdfDoubleModel SdfDoubleSpec SdfDoubleProofs.
Import ListNotations.
Local Open Scope R_scope.

Lemma axis_square (a b n : Z) (m : Z) : (0 <= a < n)%Z -> (-1 <= b <= n)%Z -> (n <= m)%Z -> (0 <= (a - b) * (a - b) <= m * m)%Z.
Proof.
  intros Ha Hb Hm. assert (H : (- m <= a - b <= m)%Z) by lia. generalize dependent (a - b)%Z. intros d H. nia.
Qed.

Lemma in_wide nx ny nz filled (border : bool) i j :
  opposite nx ny nz filled i j \/ extra border nx ny nz j ->
  (-1 <= ix j <= nx /\ -1 <= iy j <= ny /\ -1 <= iz j <= nz)%Z.
Proof.
  destruct j as [[x y] z]. cbn [ix iy iz fst snd]. intros [(H & _)|(_ & H)].
  - unfold in_box in H. lia.
  - unfold in_shell in H. destruct H as ((H1 & H2 & H3) & _).
    destruct (1 <? nx)%Z eqn:?, (1 <? ny)%Z eqn:?, (1 <? nz)%Z eqn:?; lia.
Qed.

Lemma stored_bound eps r nx ny nz filled border f N : 0 < r -> 0 <= eps <= / 100 -> (1 <= N)%Z ->
  (nx <= N)%Z -> (ny <= N)%Z -> (nz <= N)%Z -> g_nx f = nx -> g_ny f = ny -> g_nz f = nz ->
  accurate eps r nx ny nz filled border f ->
  forall i d, gget f i = Some d -> Rabs d <= 5 / 2 * IZR N * r.
Proof.
  intros Hr He HN Hx Hy Hz Fx Fy Fz Ac i d Gd.
  assert (Hi : in_box nx ny nz i).
  { pose proof (gget_in_bounds _ _ _ Gd) as Hb. destruct i as [[x y] z]. apply in_bounds_iff in Hb.
    rewrite Fx, Fy, Fz in Hb. exact Hb. }
  destruct (Ac i Hi) as (d' & j & Gd' & Tj & _ & B). rewrite Gd in Gd'. injection Gd' as <-.
  apply in_wide in Tj. 
  assert (S : (0 <= sqdist i j <= 3 * (N * N))%Z).
  { destruct i as [[x y] z], j as [[x' y'] z']. cbn [ix iy iz fst snd] in Tj. unfold in_box in Hi. unfold sqdist.
    pose proof (axis_square x x' nx N ltac:(lia) ltac:(lia) Hx). pose proof (axis_square y y' ny N ltac:(lia) ltac:(lia) Hy).
    pose proof (axis_square z z' nz N ltac:(lia) ltac:(lia) Hz). lia. }
  assert (N1 : 1 <= IZR N) by now apply IZR_le.
  assert (Q : sqrt (IZR (sqdist i j)) <= 2 * IZR N).
  { rewrite <- (sqrt_square (2 * IZR N)) by lra. apply sqrt_le_1_alt.
    apply Rle_trans with (IZR (3 * (N * N))); [apply IZR_le; lia|]. rewrite !mult_IZR. nra. }
  unfold cell_dist in B. set (s := sqrt (IZR (sqdist i j))) in *. assert (0 <= s) by apply sqrt_pos.
  assert (C0 : 0 <= r * s) by (apply Rmult_le_pos; lra).
  assert (C1 : r * s <= r * (2 * IZR N)) by (apply Rmult_le_compat_l; lra).
  assert (C2 : eps * (r * s) <= / 100 * (r * s)) by (apply Rmult_le_compat_r; lra).
  apply Rabs_le_inv in B. apply Rabs_le. destruct (filled i); lra.
Qed.

Lemma clearance_shift eps r nx ny nz filled border e e' a b t q : Rabs (e' - e) <= t ->
  clearance eps r nx ny nz filled border e a b q -> clearance eps r nx ny nz filled border e' (a + t) (b + t) q.
Proof.
  intros H ((A1 & j & y & J1 & J2 & J3) & (B1 & k & z & K1 & K2 & K3)). apply Rabs_le_inv in H. split; split.
  - intros i x Hi Hx. pose proof (A1 i x Hi Hx). lra.
  - exists j, y. split; [exact J1|]. split; [exact J2|]. unfold Rmax in *. destruct (Rle_dec e 0), (Rle_dec e' 0); lra.
  - intros i x Hi Hx. pose proof (B1 i x Hi Hx). lra.
  - exists k, z. split; [exact K1|]. split; [exact K2|]. unfold Rmax in *. destruct (Rle_dec (- e) 0), (Rle_dec (- e') 0); lra.
Qed.

Lemma has_target nx ny nz filled (border : bool) i : both_kinds nx ny nz filled border ->
  exists j, opposite nx ny nz filled i j \/ extra border nx ny nz j.
Proof.
  intros [((a & Ha & Fa) & (b & Hb & Fb))|(-> & j & Hj)].
  - destruct (filled i) eqn:Fi; [exists b|exists a]; left; (split; [assumption|congruence]).
  - exists j. now right.
Qed.

Lemma nearest_bound nx ny nz filled (border : bool) i m N : (nx <= N)%Z -> (ny <= N)%Z -> (nz <= N)%Z ->
  in_box nx ny nz i -> both_kinds nx ny nz filled border ->
  is_nearest (fun j => opposite nx ny nz filled i j \/ extra border nx ny nz j) i m ->
  exists d, m = Some d /\ (1 <= d <= 3 * (N * N))%Z.
Proof.
  intros Hx Hy Hz Hi Hb Hm. destruct (has_target nx ny nz filled border i Hb) as (j & Tj).
  assert (H1 : dle (Some 1%Z) m) by (apply (nearest_ge1 _ i m) with (2 := Hm); intros [Q|(_ & Q)];
    [now apply opposite_irrefl in Q|destruct i as [[? ?] ?]; now apply Q]).
  destruct m as [d|]; [|now elim (Hm j)]. exists d. split; [reflexivity|]. split; [exact H1|].
  destruct Hm as (_ & M). apply Z.le_trans with (1 := M j Tj). apply in_wide in Tj.
  destruct i as [[x y] z], j as [[x' y'] z']. cbn [ix iy iz fst snd] in Tj. unfold in_box in Hi. unfold sqdist.
  pose proof (axis_square x x' nx N ltac:(lia) ltac:(lia) Hx). pose proof (axis_square y y' ny N ltac:(lia) ltac:(lia) Hy).
  pose proof (axis_square z z' nz N ltac:(lia) ltac:(lia) Hz). lia.
Qed.

Lemma metric_bound r d N : 0 < r -> (1 <= N <= 33554432)%Z -> (1 <= d <= 3 * (N * N))%Z ->
  0 <= r * sqrt (IZR d) <= bpow radix2 26 * r.
Proof.
  intros Hr HN Hd. split; [apply Rmult_le_pos; [lra|apply sqrt_pos]|]. rewrite Rmult_comm. apply Rmult_le_compat_r; [lra|].
  rewrite <- (sqrt_square (bpow radix2 26)) by apply bpow_ge_0. apply sqrt_le_1_alt. rewrite <- bpow_plus.
  change (bpow radix2 (26 + 26)) with (IZR 4503599627370496). apply IZR_le. nia.
Qed.

Section Finite.
Variables (res : b64) (nx ny nz N : Z) (filled : idx -> bool) (border : bool).
Hypothesis Fres : is_finite res = true.
Hypothesis Hx : (0 < nx <= B25 - 2)%Z.
Hypothesis Hy : (0 < ny <= B25 - 2)%Z.
Hypothesis Hz : (0 < nz <= B25 - 2)%Z.
Hypothesis Both : both_kinds nx ny nz filled border.

Lemma box_of {V} (g : grid V) i v : g_nx g = nx -> g_ny g = ny -> g_nz g = nz -> gget g i = Some v -> in_box nx ny nz i.
Proof using.
  intros Gx Gy Gz Gv. pose proof (gget_in_bounds _ _ _ Gv) as Hb. destruct i as [[x y] z]. apply in_bounds_iff in Hb.
  rewrite Gx, Gy, Gz in Hb. exact Hb.
Qed.

Lemma finite_double oob g : bpow radix2 (-900) <= B2R res <= bpow radix2 900 ->
  sdf_binary64 res oob true border nx ny nz filled = Some g ->
  gwf g /\ g_nx g = nx /\ g_ny g = ny /\ g_nz g = nz /\ forall i v, gget g i = Some v -> is_finite v = true.
Proof using Fres Hx Hy Hz Both.
  intros (R1 & R2) E. assert (Pos : 0 < B2R res) by (pose proof (bpow_gt_0 radix2 (-900)); lra).
  destruct (sdf_binary64_ok res Fres Pos oob nx ny nz filled border Hx Hy Hz) as (g' & E' & W & Gx & Gy & Gz & G).
  rewrite E in E'. injection E' as <-. do 4 (split; [assumption|]). intros i v Gv.
  pose proof (box_of g i v Gx Gy Gz Gv) as Hi. destruct (G i Hi) as (v' & Gv' & m & Hm & Hv).
  rewrite Gv in Gv'. injection Gv' as <-. assert (HB : B25 = 33554432%Z) by reflexivity.
  destruct (nearest_bound nx ny nz filled border i m 33554432 ltac:(lia) ltac:(lia) ltac:(lia) Hi Both Hm) as (d & -> & Hd).
  destruct (Rlt_dec _ _) as [_|Q]; [now apply Hv|]. exfalso. apply Q.
  assert (P' : bpow radix2 (-1022) <= B2R res) by (apply Rle_trans with (2 := R1); apply bpow_le; lia).
  pose proof (metric64_rel (B2R res) d P' ltac:(lia)) as M.
  pose proof (metric_bound (B2R res) d 33554432 Pos ltac:(lia) Hd) as (B0 & B1).
  set (t := B2R res * sqrt (IZR d)) in *. clearbody t.
  assert (U1 : 2 * u64 + u64 * u64 <= 1) by (unfold u64; cbn; lra).
  assert (U2 : (2 * u64 + u64 * u64) * t <= 1 * t) by (apply Rmult_le_compat_r; lra).
  assert (B2 : bpow radix2 26 * B2R res <= bpow radix2 926).
  { change 926%Z with (26 + 900)%Z. rewrite bpow_plus. apply Rmult_le_compat_l; [apply bpow_ge_0|exact R2]. }
  assert (B3 : 2 * bpow radix2 926 < bpow radix2 1024).
  { change 2 with (bpow radix2 1). rewrite <- bpow_plus. apply bpow_lt. lia. }
  apply Rabs_le_inv in M. lra.
Qed.

Lemma finite_float oob g : bpow radix2 (-126) <= B2R res <= bpow radix2 90 ->
  sdf_binary32 res oob true border nx ny nz filled = Some g ->
  gwf g /\ g_nx g = nx /\ g_ny g = ny /\ g_nz g = nz /\ forall i v, gget g i = Some v -> is_finite v = true.
Proof using Fres Hx Hy Hz Both.
  intros (R1 & R2) E. assert (Pos : 0 < B2R res) by (pose proof (bpow_gt_0 radix2 (-126)); lra).
  assert (P' : bpow radix2 (-150) < B2R res) by (apply Rlt_le_trans with (2 := R1); apply bpow_lt; lia).
  destruct (sdf_binary32_ok res Fres Pos P' oob nx ny nz filled border Hx Hy Hz) as (g' & E' & W & Gx & Gy & Gz & G).
  rewrite E in E'. injection E' as <-. do 4 (split; [assumption|]). intros i v Gv.
  pose proof (box_of g i v Gx Gy Gz Gv) as Hi. destruct (G i Hi) as (v' & Gv' & m & Hm & Hv).
  rewrite Gv in Gv'. injection Gv' as <-. assert (HB : B25 = 33554432%Z) by reflexivity.
  destruct (nearest_bound nx ny nz filled border i m 33554432 ltac:(lia) ltac:(lia) ltac:(lia) Hi Both Hm) as (d & -> & Hd).
  destruct (Rlt_dec _ _) as [_|Q]; [now apply Hv|]. exfalso. apply Q.
  pose proof (single_rel (B2R res) d R1 (generic_format_B2R _ _ res) ltac:(lia)) as M.
  pose proof (metric_bound (B2R res) d 33554432 Pos ltac:(lia) Hd) as (B0 & B1).
  set (t := B2R res * sqrt (IZR d)) in *. clearbody t.
  assert (U1 : SdfSingleProofs.u32 + 3 * u64 <= 1) by (unfold u64, SdfSingleProofs.u32; cbn; lra).
  assert (U2 : (SdfSingleProofs.u32 + 3 * u64) * t <= 1 * t) by (apply Rmult_le_compat_r; lra).
  assert (B2 : bpow radix2 26 * B2R res <= bpow radix2 116).
  { change 116%Z with (26 + 90)%Z. rewrite bpow_plus. apply Rmult_le_compat_l; [apply bpow_ge_0|exact R2]. }
  assert (B3 : 2 * bpow radix2 116 < bpow radix2 128).
  { change 2 with (bpow radix2 1). rewrite <- bpow_plus. apply bpow_lt. lia. }
  apply Rabs_le_inv in M. lra.
Qed.
End Finite.

(** The grid of the values as reals. *)
Lemma reals_exist {V} (ok : V -> bool) (of : V -> R) (g : grid V) : gwf g -> (forall i v, gget g i = Some v -> ok v = true) ->
  exists f, reals_of (fun v d => ok v = true /\ d = of v) g f.
Proof.
  intros W H. pose proof W as (Nx & Ny & Nz & _).
  exists (gtab (g_nx g) (g_ny g) (g_nz g) (fun i => match gget g i with Some v => of v | None => 0 end)).
  split; [now apply gtab_wf|]. do 3 (split; [reflexivity|]). intros i v Gv. exists (of v). split; [|split; [exact (H i v Gv)|reflexivity]].
  rewrite gget_gtab. pose proof (gget_in_bounds _ _ _ Gv) as Hb. unfold in_bounds in Hb. now rewrite Hb, Gv.
Qed.
