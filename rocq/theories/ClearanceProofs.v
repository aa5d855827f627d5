(** Estimated distances against the true distances to voxels. *)
From Coq Require Import ZArith Reals List Lia Lra Bool.
From Flocq Require Import Core.
From Verif Require Import Util Grid EdtSpec SdfModel SdfSpec SdfLaws SdfQueryModel SdfQueryArith SdfQuerySpec
  SdfEstimateProofs ClearanceSpec.
Local Open Scope R_scope.

(** ** Distances *)

Lemma gap_triangle p q s : gap p s <= gap p q + gap q s.
Proof.
  destruct p as [[x y] z], q as [[x' y'] z'], s as [[x'' y''] z'']. unfold gap.
  eapply Rle_trans; [|apply triangle3]. right. f_equal. ring.
Qed.

Lemma gap_sym p q : gap p q = gap q p.
Proof. destruct p as [[x y] z], q as [[x' y'] z']. unfold gap. f_equal. ring. Qed.

Lemma gap_nonneg p q : 0 <= gap p q.
Proof. destruct p as [[x y] z], q as [[x' y'] z']. apply sqrt_pos. Qed.

Lemma sqrt3_sq : sqrt 3 * sqrt 3 = 3.
Proof. apply sqrt_sqrt. lra. Qed.
Lemma sqrt3_bounds : 1732 / 1000 <= sqrt 3 <= 1733 / 1000.
Proof. pose proof sqrt3_sq. pose proof (sqrt_pos 3). split; nra. Qed.

(** Points that differ by at most [t] on every axis. *)
Lemma gap_box t x y z x' y' z' : 0 <= t -> Rabs (x - x') <= t -> Rabs (y - y') <= t -> Rabs (z - z') <= t ->
  gap (x, y, z) (x', y', z') <= sqrt 3 * t.
Proof.
  intros Ht X Y Z. unfold gap. apply Rsqr_incr_0_var; [|pose proof sqrt3_bounds; nra].
  rewrite Rsqr_sqrt by apply sum_sq_nonneg.
  unfold Rsqr. replace (sqrt 3 * t * (sqrt 3 * t)) with (sqrt 3 * sqrt 3 * (t * t)) by ring. rewrite sqrt3_sq.
  assert (S : forall a, Rabs a <= t -> a * a <= t * t).
  { intros a H. apply Rabs_le_inv in H. nra. }
  pose proof (S _ X). pose proof (S _ Y). pose proof (S _ Z). lra.
Qed.

Lemma sqrt_scale r a : 0 <= r -> 0 <= a -> r * sqrt a = sqrt (r * r * a).
Proof. intros Hr Ha. rewrite sqrt_mult by nra. now rewrite sqrt_square by easy. Qed.

Section Voxels.
Variable r : R.
Hypothesis Hr : 0 < r.

Definition mid (c : idx) : R * R * R := (r * (IZR (ix c) + 1 / 2), r * (IZR (iy c) + 1 / 2), r * (IZR (iz c) + 1 / 2)).

Lemma gap_mid i j : gap (mid i) (mid j) = cell_dist r i j.
Proof using Hr.
  destruct i as [[x y] z], j as [[x' y'] z']. unfold gap, mid, cell_dist. rewrite sqdist_IZR. cbn [ix iy iz fst snd].
  rewrite sqrt_scale by (lra || apply sum_sq_nonneg). f_equal. ring.
Qed.

(** A voxel is within half a diagonal of its centre. *)
Lemma voxel_radius j y : in_voxel r j y -> gap (mid j) y <= sqrt 3 / 2 * r.
Proof using Hr.
  destruct y as [[x y] z]. intros (X & Y & Z). cbn [fst snd] in *. replace (sqrt 3 / 2 * r) with (sqrt 3 * (r / 2)) by field.
  apply gap_box; [lra|apply Rabs_le; lra..].
Qed.

(** It contains the ball around its centre: a point of it is closer than the centre by half
    the voxel size. *)
Lemma voxel_ball i j : 1 <= IZR (sqdist i j) ->
  exists y, in_voxel r j y /\ gap (mid i) y = cell_dist r i j - r / 2.
Proof using Hr.
  intros H. set (n := sqrt (IZR (sqdist i j))).
  assert (Hn : 1 <= n) by (unfold n; rewrite <- sqrt_1; now apply sqrt_le_1_alt).
  assert (Sn : n * n = IZR (sqdist i j)) by (apply sqrt_sqrt; lra). rewrite sqdist_IZR in Sn.
  destruct i as [[x y] z], j as [[x' y'] z'].
  set (a := IZR x - IZR x') in *. set (b := IZR y - IZR y') in *. set (c := IZR z - IZR z') in *.
  assert (B : forall w, w * w <= n * n -> Rabs (w / n) <= 1).
  { intros w Hw. unfold Rdiv. rewrite Rabs_mult, Rabs_inv, (Rabs_pos_eq n) by lra.
    apply Rmult_le_reg_r with n; [lra|]. rewrite Rmult_assoc, Rinv_l, Rmult_1_r, Rmult_1_l by lra.
    apply Rabs_le. split; nra. }
  exists (r * (IZR x' + 1 / 2) + a / n * (r / 2), r * (IZR y' + 1 / 2) + b / n * (r / 2),
     r * (IZR z' + 1 / 2) + c / n * (r / 2)). split.
  - assert (K : forall w, Rabs (w / n) <= 1 -> - (r / 2) <= w / n * (r / 2) <= r / 2).
    { intros w Hw. apply Rabs_le_inv in Hw. split; nra. }
    pose proof (K a (B a ltac:(nra))). pose proof (K b (B b ltac:(nra))). pose proof (K c (B c ltac:(nra))).
    unfold in_voxel. cbn [ix iy iz fst snd]. lra.
  - unfold gap, mid, cell_dist. cbn [ix iy iz fst snd]. fold n.
    replace (r * n - r / 2) with (r * (n - 1 / 2)) by field.
    apply sqrt_lem_1; [apply sum_sq_nonneg|nra|].
    replace (r * (IZR x + 1 / 2) - (r * (IZR x' + 1 / 2) + a / n * (r / 2))) with (r * (a * (1 - 1 / (2 * n)))) by (unfold a; field; lra).
    replace (r * (IZR y + 1 / 2) - (r * (IZR y' + 1 / 2) + b / n * (r / 2))) with (r * (b * (1 - 1 / (2 * n)))) by (unfold b; field; lra).
    replace (r * (IZR z + 1 / 2) - (r * (IZR z' + 1 / 2) + c / n * (r / 2))) with (r * (c * (1 - 1 / (2 * n)))) by (unfold c; field; lra).
    transitivity (r * r * ((1 - 1 / (2 * n)) * (1 - 1 / (2 * n)) * (a * a + b * b + c * c))); [|ring].
    rewrite <- Sn. field. lra.
Qed.

(** A location within one voxel of a centre, on every axis, is within half a diagonal of
    that voxel. *)
Lemma voxel_near c q : near_cell r r c q -> exists y, in_voxel r c y /\ gap q y <= sqrt 3 / 2 * r.
Proof using Hr.
  destruct q as [[x y] z]. intros (X & Y & Z). unfold near_axis in *. cbn [fst snd] in *.
  assert (K : forall k w, Rabs (r * (IZR k + 1 / 2) - w) <= r ->
    exists v, r * IZR k <= v <= r * (IZR k + 1) /\ Rabs (w - v) <= r / 2).
  { intros k w Hw. apply Rabs_le_inv in Hw. exists (Rmax (r * IZR k) (Rmin w (r * (IZR k + 1)))).
    unfold Rmax, Rmin. destruct (Rle_dec w _); destruct (Rle_dec (r * IZR k) _); (split; [lra|apply Rabs_le; lra]). }
  destruct (K _ _ X) as (x' & X1 & X2), (K _ _ Y) as (y' & Y1 & Y2), (K _ _ Z) as (z' & Z1 & Z2).
  exists (x', y', z'). split; [now repeat split|].
  replace (sqrt 3 / 2 * r) with (sqrt 3 * (r / 2)) by field. apply gap_box; [lra|assumption..].
Qed.
End Voxels.

(** ** Averages *)

Definition used (n : Z) (u : R) (k : Z) : Prop := (0 <= k < n)%Z /\ Rabs (IZR k + 1 / 2 - u) <= 1.
Definition centred (n : Z) (u : R) : Prop := n = 1%Z \/ 1 / 2 <= u <= IZR n - 1 / 2.

Lemma blend_plus n f g u : blend n (fun k => f k + g k) u = blend n f u + blend n g u.
Proof. unfold blend. destruct (n =? 1)%Z; [easy|]. unfold lerp. ring. Qed.
Lemma blend_scale n k f u : blend n (fun c => k * f c) u = k * blend n f u.
Proof. unfold blend. destruct (n =? 1)%Z; [easy|]. unfold lerp. ring. Qed.
Lemma blend_opp n f u : blend n (fun c => - f c) u = - blend n f u.
Proof. unfold blend. destruct (n =? 1)%Z; [easy|]. unfold lerp. ring. Qed.

Lemma blend_pick n f u : (1 <= n)%Z -> 0 <= u < IZR n -> centred n u ->
  exists k, used n u k /\ f k <= blend n f u.
Proof.
  intros Hn Hu Hc. unfold blend. destruct (n =? 1)%Z eqn:E.
  - exists 0%Z. assert (n = 1%Z) by lia. subst n. simpl in Hu. split; [|lra]. split; [lia|]. apply Rabs_le. simpl. lra.
  - destruct (lower_cell_offset n u ltac:(lia) Hu) as (H1 & _ & H2). destruct Hc as [Hc|Hc]; [lia|]. specialize (H2 Hc).
    set (k := lower_cell n u) in *. destruct (Rle_dec (f k) (f (k + 1)%Z)) as [L|L].
    + exists k. split; [split; [lia|apply Rabs_le; lra]|]. unfold lerp. nra.
    + exists (k + 1)%Z. split; [split; [lia|apply Rabs_le; rewrite plus_IZR; lra]|]. unfold lerp. nra.
Qed.

Lemma blend_le n f g u : (1 <= n)%Z -> 0 <= u < IZR n -> centred n u ->
  (forall k, used n u k -> f k <= g k) -> blend n f u <= blend n g u.
Proof.
  intros Hn Hu Hc H. destruct (blend_pick n (fun k => g k - f k) u Hn Hu Hc) as (k & Uk & Hk).
  rewrite <- blend_minus in Hk. specialize (H k Uk). lra.
Qed.

Lemma blend_square n u : (1 <= n)%Z -> 0 <= u < IZR n -> centred n u ->
  blend n (fun k => (IZR k + 1 / 2 - u) * (IZR k + 1 / 2 - u)) u <= 1 / 4.
Proof.
  intros Hn Hu Hc. unfold blend. destruct (n =? 1)%Z eqn:E.
  - assert (n = 1%Z) by lia. subst n. simpl in *. nra.
  - destruct (lower_cell_offset n u ltac:(lia) Hu) as (H1 & _ & H2). destruct Hc as [Hc|Hc]; [lia|]. specialize (H2 Hc).
    set (k := lower_cell n u) in *. rewrite plus_IZR. set (t := u - IZR k - 1 / 2) in *.
    replace (IZR k + 1 / 2 - u) with (- t) by (unfold t; ring). replace (IZR k + 1 + 1 / 2 - u) with (1 - t) by (unfold t; ring).
    unfold lerp. pose proof (Rle_0_sqr (t - 1 / 2)) as S. unfold Rsqr in S. lra.
Qed.

Section Average.
Variables (nx ny nz : Z) (ux uy uz : R).
Hypothesis (Nx : (1 <= nx)%Z) (Ny : (1 <= ny)%Z) (Nz : (1 <= nz)%Z).
Hypothesis (Ux : 0 <= ux < IZR nx) (Uy : 0 <= uy < IZR ny) (Uz : 0 <= uz < IZR nz).

Definition average (F : idx -> R) : R :=
  blend nx (fun a => blend ny (fun b => blend nz (fun c => F (a, b, c)) uz) uy) ux.

Definition corner (c : idx) : Prop := used nx ux (ix c) /\ used ny uy (iy c) /\ used nz uz (iz c).

Lemma average_ext F G : (forall c, in_box nx ny nz c -> F c = G c) -> average F = average G.
Proof using Nx Ny Nz Ux Uy Uz.
  intros H. unfold average. apply blend_ext; [lia|assumption|]. intros a Ha. apply blend_ext; [lia|assumption|].
  intros b Hb. apply blend_ext; [lia|assumption|]. intros c Hc. apply H. now repeat split.
Qed.

Lemma average_plus F G : average (fun c => F c + G c) = average F + average G.
Proof using Nx Ny Nz Ux Uy Uz.
  unfold average. rewrite <- blend_plus. apply blend_ext; [lia|assumption|]. intros a Ha.
  rewrite <- blend_plus. apply blend_ext; [lia|assumption|]. intros b Hb. now rewrite <- blend_plus.
Qed.
Lemma average_scale k F : average (fun c => k * F c) = k * average F.
Proof using Nx Ny Nz Ux Uy Uz.
  unfold average. rewrite <- blend_scale. apply blend_ext; [lia|assumption|]. intros a Ha.
  rewrite <- blend_scale. apply blend_ext; [lia|assumption|]. intros b Hb. now rewrite <- blend_scale.
Qed.
Lemma average_const k : average (fun _ => k) = k.
Proof using Nx Ny Nz Ux Uy Uz.
  unfold average. transitivity (blend nx (fun _ => k) ux); [|apply blend_const]. apply blend_ext; [lia|assumption|].
  intros a Ha. transitivity (blend ny (fun _ => k) uy); [|apply blend_const]. apply blend_ext; [lia|assumption|].
  intros b Hb. apply blend_const.
Qed.
Lemma average_opp F : average (fun c => - F c) = - average F.
Proof using Nx Ny Nz Ux Uy Uz.
  replace (- average F) with (-1 * average F) by ring. rewrite <- average_scale. apply average_ext. intros. ring.
Qed.

Hypothesis (Cx : centred nx ux) (Cy : centred ny uy) (Cz : centred nz uz).

Lemma average_pick F : exists c, corner c /\ F c <= average F.
Proof using Nx Ny Nz Ux Uy Uz Cx Cy Cz.
  unfold average.
  destruct (blend_pick nx (fun a => blend ny (fun b => blend nz (fun c => F (a, b, c)) uz) uy) ux Nx Ux Cx) as (a & Ha & La).
  destruct (blend_pick ny (fun b => blend nz (fun c => F (a, b, c)) uz) uy Ny Uy Cy) as (b & Hb & Lb).
  destruct (blend_pick nz (fun c => F (a, b, c)) uz Nz Uz Cz) as (c & Hc & Lc).
  exists (a, b, c). split; [easy|]. lra.
Qed.

Lemma average_le F G : (forall c, corner c -> F c <= G c) -> average F <= average G.
Proof using Nx Ny Nz Ux Uy Uz Cx Cy Cz.
  intros H. destruct (average_pick (fun c => G c + (-1) * F c)) as (c & Hc & L).
  rewrite average_plus, average_scale in L. specialize (H c Hc). lra.
Qed.

Lemma average_square :
  average (fun c => (IZR (ix c) + 1 / 2 - ux) * (IZR (ix c) + 1 / 2 - ux)
    + (IZR (iy c) + 1 / 2 - uy) * (IZR (iy c) + 1 / 2 - uy) + (IZR (iz c) + 1 / 2 - uz) * (IZR (iz c) + 1 / 2 - uz)) <= 3 / 4.
Proof using Nx Ny Nz Ux Uy Uz Cx Cy Cz.
  rewrite !average_plus. unfold average. cbn [ix iy iz fst snd].
  assert (X : blend nx (fun a => blend ny (fun _ => blend nz (fun _ => (IZR a + 1 / 2 - ux) * (IZR a + 1 / 2 - ux)) uz) uy) ux
    = blend nx (fun a => (IZR a + 1 / 2 - ux) * (IZR a + 1 / 2 - ux)) ux).
  { apply blend_ext; [lia|assumption|]. intros a Ha.
    transitivity (blend ny (fun _ => (IZR a + 1 / 2 - ux) * (IZR a + 1 / 2 - ux)) uy); [|apply blend_const].
    apply blend_ext; [lia|assumption|]. intros b Hb. apply blend_const. }
  assert (Y : blend nx (fun _ => blend ny (fun b => blend nz (fun _ => (IZR b + 1 / 2 - uy) * (IZR b + 1 / 2 - uy)) uz) uy) ux
    = blend ny (fun b => (IZR b + 1 / 2 - uy) * (IZR b + 1 / 2 - uy)) uy).
  { rewrite blend_const. apply blend_ext; [lia|assumption|]. intros b Hb. apply blend_const. }
  assert (Z : blend nx (fun _ => blend ny (fun _ => blend nz (fun c => (IZR c + 1 / 2 - uz) * (IZR c + 1 / 2 - uz)) uz) uy) ux
    = blend nz (fun c => (IZR c + 1 / 2 - uz) * (IZR c + 1 / 2 - uz)) uz).
  { now rewrite !blend_const. }
  rewrite X, Y, Z. pose proof (blend_square nx ux Nx Ux Cx). pose proof (blend_square ny uy Ny Uy Cy).
  pose proof (blend_square nz uz Nz Uz Cz). lra.
Qed.

(** Centres are, on average, within half a diagonal. *)
Variable r : R.
Hypothesis Hr : 0 < r.
Let q : R * R * R := (r * ux, r * uy, r * uz).

Lemma average_gap : average (fun c => gap (mid r c) q) <= sqrt 3 / 2 * r.
Proof using Nx Ny Nz Ux Uy Uz Cx Cy Cz Hr.
  set (Q := fun c : idx => (IZR (ix c) + 1 / 2 - ux) * (IZR (ix c) + 1 / 2 - ux)
    + (IZR (iy c) + 1 / 2 - uy) * (IZR (iy c) + 1 / 2 - uy) + (IZR (iz c) + 1 / 2 - uz) * (IZR (iz c) + 1 / 2 - uz)).
  apply Rle_trans with (average (fun c => r / sqrt 3 * Q c + sqrt 3 / 4 * r)).
  - apply average_le. intros c _. assert (E : gap (mid r c) q = r * sqrt (Q c)).
    { rewrite sqrt_scale by (lra || apply sum_sq_nonneg). unfold gap, mid, q, Q. f_equal. ring. }
    rewrite E. assert (HQ : 0 <= Q c) by apply sum_sq_nonneg. set (s := sqrt (Q c)).
    assert (Es : s * s = Q c) by (now apply sqrt_sqrt). rewrite <- Es.
    assert (S0 : 0 < sqrt 3) by (pose proof sqrt3_bounds; lra).
    assert (I : / sqrt 3 = sqrt 3 / 3).
    { apply Rmult_eq_reg_l with (sqrt 3); [|lra]. rewrite Rinv_r by lra. pose proof sqrt3_sq. lra. }
    unfold Rdiv. rewrite I. pose proof sqrt3_sq as S3.
    assert (K : 0 <= sqrt 3 / 3 * ((s - sqrt 3 / 2) * (s - sqrt 3 / 2))) by (apply Rmult_le_pos; [lra|apply Rle_0_sqr]).
    assert (K2 : sqrt 3 / 3 * ((s - sqrt 3 / 2) * (s - sqrt 3 / 2)) = sqrt 3 / 3 * (s * s) - s * (sqrt 3 * sqrt 3) / 3 + sqrt 3 * (sqrt 3 * sqrt 3) / 12) by field.
    rewrite K2, S3 in K. replace (r * (sqrt 3 / 3) * (s * s) + sqrt 3 * / 4 * r) with (r * (sqrt 3 / 3 * (s * s) + sqrt 3 / 4)) by field.
    apply Rmult_le_compat_l; lra.
  - rewrite average_plus, average_scale, average_const. pose proof average_square as A. fold Q in A.
    assert (S0 : 0 < sqrt 3) by (pose proof sqrt3_bounds; lra).
    assert (I : / sqrt 3 = sqrt 3 / 3).
    { apply Rmult_eq_reg_l with (sqrt 3); [|lra]. rewrite Rinv_r by lra. pose proof sqrt3_sq. lra. }
    unfold Rdiv at 1. rewrite I. assert (0 <= r * (sqrt 3 / 3)) by nra.
    assert (r * (sqrt 3 / 3) * average Q <= r * (sqrt 3 / 3) * (3 / 4)) by (apply Rmult_le_compat_l; assumption).
    lra.
Qed.

(** ** One side *)

(** [T]: the voxels the distance is measured to.  Cells of [T] hold no positive value, the
    others the distance to the nearest voxel of [T], with relative error [eps], less half a
    voxel. *)
Variables (T : idx -> Prop) (F : idx -> R) (eps : R).
Hypothesis Heps : 0 <= eps <= 1 / 2.
Hypothesis HF : forall c, in_box nx ny nz c ->
  (T c /\ F c <= 0) \/
  ((forall j, T j -> F c <= (1 + eps) * cell_dist r c j - r / 2) /\
   exists j, T j /\ 1 <= IZR (sqdist c j) /\ (1 - eps) * cell_dist r c j - r / 2 <= F c).

Lemma corner_box c : corner c -> in_box nx ny nz c.
Proof using.
  destruct c as [[a b] d]. intros ((H1 & _) & (H2 & _) & (H3 & _)). exact (conj H1 (conj H2 H3)).
Qed.

Lemma side_upper j y : T j -> in_voxel r j y -> average F <= (1 + eps) * (gap q y + sqrt 3 * r) - r / 2.
Proof using Nx Ny Nz Ux Uy Uz Cx Cy Cz Hr Heps HF.
  intros Tj Vy. pose proof sqrt3_bounds as S3.
  apply Rle_trans with (average (fun c => (1 + eps) * gap (mid r c) q + ((1 + eps) * (gap q y + sqrt 3 / 2 * r) - r / 2))).
  - apply average_le. intros c Hc. pose proof (gap_nonneg (mid r c) q) as G1. pose proof (gap_nonneg q y) as G2.
    destruct (HF c (corner_box c Hc)) as [(_ & L)|(L & _)].
    + assert (0 <= (1 + eps) * gap (mid r c) q) by (apply Rmult_le_pos; lra).
      assert (0 <= (1 + eps) * gap q y) by (apply Rmult_le_pos; lra).
      assert (1 * (sqrt 3 / 2 * r) <= (1 + eps) * (sqrt 3 / 2 * r)) by (apply Rmult_le_compat_r; nra). nra.
    + specialize (L j Tj). rewrite <- (gap_mid r Hr) in L. pose proof (voxel_radius r Hr j y Vy) as V.
      pose proof (gap_triangle (mid r c) q (mid r j)) as T1. pose proof (gap_triangle q y (mid r j)) as T2.
      rewrite (gap_sym y (mid r j)) in T2.
      assert ((1 + eps) * gap (mid r c) (mid r j) <= (1 + eps) * (gap (mid r c) q + (gap q y + sqrt 3 / 2 * r)))
        by (apply Rmult_le_compat_l; lra). lra.
  - rewrite average_plus, average_scale, average_const. pose proof average_gap as A.
    assert ((1 + eps) * average (fun c => gap (mid r c) q) <= (1 + eps) * (sqrt 3 / 2 * r)) by (apply Rmult_le_compat_l; lra).
    lra.
Qed.

Lemma corner_near c : corner c -> near_cell r r c q.
Proof using Hr.
  intros ((_ & X) & (_ & Y) & (_ & Z)).
  assert (K : forall k u, Rabs (IZR k + 1 / 2 - u) <= 1 -> near_axis r r k (r * u)).
  { intros k u H. unfold near_axis. replace (r * (IZR k + 1 / 2) - r * u) with (r * (IZR k + 1 / 2 - u)) by ring.
    rewrite Rabs_mult, (Rabs_pos_eq r) by lra. rewrite <- (Rmult_1_r r) at 2. apply Rmult_le_compat_l; lra. }
  unfold near_cell, q. cbn [fst snd]. split; [|split]; now apply K.
Qed.

Lemma side_lower : exists j y, T j /\ in_voxel r j y /\ (1 - eps) * gap q y <= Rmax (average F) 0 + sqrt 3 / 2 * r.
Proof using Nx Ny Nz Ux Uy Uz Cx Cy Cz Hr Heps HF.
  pose proof sqrt3_bounds as S3.
  destruct (average_pick (fun c => F c + (1 - eps) * gap (mid r c) q)) as (c & Hc & L).
  rewrite average_plus, average_scale in L. pose proof average_gap as A.
  assert (L' : (1 - eps) * average (fun c => gap (mid r c) q) <= (1 - eps) * (sqrt 3 / 2 * r)) by (apply Rmult_le_compat_l; lra).
  pose proof (Rmax_l (average F) 0). pose proof (Rmax_r (average F) 0).
  destruct (HF c (corner_box c Hc)) as [(Tc & _)|(_ & j & Tj & D & Lj)].
  - destruct (voxel_near r Hr c q (corner_near c Hc)) as (y & Vy & Gy). exists c, y. split; [easy|]. split; [easy|].
    pose proof (gap_nonneg q y). nra.
  - destruct (voxel_ball r Hr c j D) as (y & Vy & Gy). exists j, y. split; [easy|]. split; [easy|].
    pose proof (gap_triangle q (mid r c) y) as T1. rewrite Gy in T1. rewrite (gap_sym q (mid r c)) in T1.
    assert ((1 - eps) * gap q y <= (1 - eps) * (gap (mid r c) q + (cell_dist r c j - r / 2))) by (apply Rmult_le_compat_l; lra).
    assert (eps * (r / 2) <= eps * (sqrt 3 / 2 * r)) by (apply Rmult_le_compat_l; nra). lra.
Qed.
End Average.

(** ** Generated fields *)

(** Every stored distance is that of the nearest opposite voxel, with relative error [eps]. *)
Definition accurate (eps r : R) (nx ny nz : Z) (filled : idx -> bool) (border : bool) (f : grid R) : Prop :=
  forall i, in_box nx ny nz i -> exists d j, gget f i = Some d /\
    (opposite nx ny nz filled i j \/ extra border nx ny nz j) /\
    (forall k, opposite nx ny nz filled i k \/ extra border nx ny nz k -> cell_dist r i j <= cell_dist r i k) /\
    Rabs (d - (if filled i then - cell_dist r i j else cell_dist r i j)) <= eps * cell_dist r i j.

Lemma distinct_dist i j : i <> j -> 1 <= IZR (sqdist i j).
Proof.
  intros H. apply IZR_le. destruct i as [[x y] z], j as [[x' y'] z']. unfold sqdist.
  assert (K : forall a, (a <> 0 -> 1 <= a * a)%Z) by (intros; nia). assert (K0 : forall a, (0 <= a * a)%Z) by (intros; nia).
  pose proof (K0 (x - x')%Z). pose proof (K0 (y - y')%Z). pose proof (K0 (z - z')%Z).
  destruct (Z.eq_dec x x') as [->|X]; [|pose proof (K (x - x')%Z ltac:(lia)); lia].
  destruct (Z.eq_dec y y') as [->|Y]; [|pose proof (K (y - y')%Z ltac:(lia)); lia].
  destruct (Z.eq_dec z z') as [->|Z]; [easy|pose proof (K (z - z')%Z ltac:(lia)); lia].
Qed.

Section Field.
Variables (eps r : R) (nx ny nz : Z) (filled : idx -> bool) (border : bool) (f : grid R).
Hypothesis (Hr : 0 < r) (Heps : 0 <= eps <= 1 / 2).
Hypothesis (Nx : (1 <= nx)%Z) (Ny : (1 <= ny)%Z) (Nz : (1 <= nz)%Z).
Hypothesis HA : accurate eps r nx ny nz filled border f.

Lemma target_cases i j : in_box nx ny nz i ->
  opposite nx ny nz filled i j \/ extra border nx ny nz j <->
  if filled i then vacant nx ny nz filled border j else blocked nx ny nz filled border j.
Proof using.
  clear Hr Heps Nx Ny Nz HA. intros Hi. unfold opposite, extra, vacant, blocked.
  destruct (filled i); destruct (filled j); tauto || (split; intros [H|H]; try tauto; left; intuition easy).
Qed.

Lemma target_other i j : in_box nx ny nz i -> opposite nx ny nz filled i j \/ extra border nx ny nz j -> i <> j.
Proof using.
  clear Hr Heps Nx Ny Nz HA. intros Hi [[_ H]|[_ H]] ->; [easy|]. destruct j as [[x y] z]. now apply H.
Qed.

Lemma value_cases c : in_box nx ny nz c -> exists j, 
  (opposite nx ny nz filled c j \/ extra border nx ny nz j) /\ 1 <= IZR (sqdist c j) /\
  (forall k, opposite nx ny nz filled c k \/ extra border nx ny nz k -> cell_dist r c j <= cell_dist r c k) /\
  let F := if filled c then - field_value f r c else field_value f r c in
  (1 - eps) * cell_dist r c j - r / 2 <= F <= (1 + eps) * cell_dist r c j - r / 2 /\ 0 <= F.
Proof using Hr Heps HA.
  intros Hc. destruct (HA c Hc) as (d & j & G & Tj & M & B). exists j. split; [easy|].
  pose proof (distinct_dist c j (target_other c j Hc Tj)) as D. split; [easy|]. split; [easy|].
  assert (P : r <= cell_dist r c j).
  { unfold cell_dist. rewrite <- (Rmult_1_r r) at 1. apply Rmult_le_compat_l; [lra|]. rewrite <- sqrt_1. now apply sqrt_le_1_alt. }
  set (s := cell_dist r c j) in *. apply Rabs_le_inv in B. unfold field_value. rewrite G. cbn zeta.
  assert (eps * s <= 1 / 2 * s) by (apply Rmult_le_compat_r; lra).
  unfold shifted. destruct (filled c); destruct (Rle_dec 0 d); lra.
Qed.

Lemma blocked_side c : in_box nx ny nz c ->
  let F := field_value f r c in
  (blocked nx ny nz filled border c /\ F <= 0) \/
  ((forall j, blocked nx ny nz filled border j -> F <= (1 + eps) * cell_dist r c j - r / 2) /\
   exists j, blocked nx ny nz filled border j /\ 1 <= IZR (sqdist c j) /\ (1 - eps) * cell_dist r c j - r / 2 <= F).
Proof using Hr Heps HA.
  intros Hc F. destruct (value_cases c Hc) as (j & Tj & D & M & B & P). fold F in B, P.
  pose proof (fun k => target_cases c k Hc) as TC. destruct (filled c) eqn:E.
  - left. split; [left; now split|]. lra.
  - right. split.
    + intros k Hk. apply TC in Hk. apply M in Hk.
      assert ((1 + eps) * cell_dist r c j <= (1 + eps) * cell_dist r c k) by (apply Rmult_le_compat_l; lra). lra.
    + exists j. split; [now apply TC|]. split; [easy|lra].
Qed.

Lemma vacant_side c : in_box nx ny nz c ->
  let F := - field_value f r c in
  (vacant nx ny nz filled border c /\ F <= 0) \/
  ((forall j, vacant nx ny nz filled border j -> F <= (1 + eps) * cell_dist r c j - r / 2) /\
   exists j, vacant nx ny nz filled border j /\ 1 <= IZR (sqdist c j) /\ (1 - eps) * cell_dist r c j - r / 2 <= F).
Proof using Hr Heps HA.
  intros Hc F. destruct (value_cases c Hc) as (j & Tj & D & M & B & P). fold F in B, P.
  pose proof (fun k => target_cases c k Hc) as TC. destruct (filled c) eqn:E.
  - right. split.
    + intros k Hk. apply TC in Hk. apply M in Hk.
      assert ((1 + eps) * cell_dist r c j <= (1 + eps) * cell_dist r c k) by (apply Rmult_le_compat_l; lra). lra.
    + exists j. split; [now apply TC|]. split; [easy|lra].
  - left. split; [left; now split|]. unfold F. lra.
Qed.

(** ** The estimate *)

Definition reading (ux uy uz : R) : R := average nx ny nz ux uy uz (field_value f r).

Lemma reading_clearance ux uy uz : 0 <= ux < IZR nx -> 0 <= uy < IZR ny -> 0 <= uz < IZR nz ->
  centred nx ux -> centred ny uy -> centred nz uz ->
  clearance eps r nx ny nz filled border (reading ux uy uz) ((1 + eps) * (sqrt 3 * r) - r / 2) (sqrt 3 / 2 * r) (r * ux, r * uy, r * uz).
Proof using Hr Heps Nx Ny Nz HA.
  intros Ux Uy Uz Cx Cy Cz. unfold clearance, reading. split; split.
  - intros j w Hj Hw.
    pose proof (side_upper nx ny nz _ _ _ Nx Ny Nz Ux Uy Uz Cx Cy Cz r Hr _ _ eps Heps blocked_side j w Hj Hw). lra.
  - exact (side_lower nx ny nz _ _ _ Nx Ny Nz Ux Uy Uz Cx Cy Cz r Hr _ _ eps Heps blocked_side).
  - intros j w Hj Hw. rewrite <- average_opp by assumption.
    pose proof (side_upper nx ny nz _ _ _ Nx Ny Nz Ux Uy Uz Cx Cy Cz r Hr _ _ eps Heps vacant_side j w Hj Hw). lra.
  - rewrite <- average_opp by assumption.
    exact (side_lower nx ny nz _ _ _ Nx Ny Nz Ux Uy Uz Cx Cy Cz r Hr _ _ eps Heps vacant_side).
Qed.

Hypothesis (Hf : gwf f) (Fx : g_nx f = nx) (Fy : g_ny f = ny) (Fz : g_nz f = nz).
Variables (tg : qvec4 real_query -> qvec real_query) (tw ro : qvec real_query -> qvec real_query).

Lemma estimate_reading p e : estimate real_query (real_field f r tg tw ro) p = Answer e ->
  let ux := fst (fst (tg p)) * / r in let uy := snd (fst (tg p)) * / r in let uz := snd (tg p) * / r in
  e = reading ux uy uz /\ 0 <= ux < IZR nx /\ 0 <= uy < IZR ny /\ 0 <= uz < IZR nz /\
  tg p = (r * ux, r * uy, r * uz).
Proof using Hr Hf Fx Fy Fz.
  intros E. assert (In : inside f r (tg p)) by (eapply estimate_answers; eassumption).
  rewrite estimate_blend in E by easy. injection E as <-.
  destruct (tg p) as [[x y] z]. destruct In as (Ix & Iy & Iz). cbn [fst snd] in *.
  rewrite Fx in Ix. rewrite Fy in Iy. rewrite Fz in Iz. apply (voxels_inside r _ _ Hr) in Ix, Iy, Iz.
  split; [|split; [exact Ix|split; [exact Iy|split; [exact Iz|]]]].
  - unfold blend3, reading, average, voxels. cbn [fst snd]. now rewrite Fx, Fy, Fz.
  - assert (K : forall w, r * (w * / r) = w) by (intros; field; lra). now rewrite !K.
Qed.

Lemma estimate_clearance p e : estimate real_query (real_field f r tg tw ro) p = Answer e ->
  within_centres r nx (fst (fst (tg p))) -> within_centres r ny (snd (fst (tg p))) -> within_centres r nz (snd (tg p)) ->
  clearance eps r nx ny nz filled border e ((1 + eps) * (sqrt 3 * r) - r / 2) (sqrt 3 / 2 * r) (tg p).
Proof using Hr Heps Nx Ny Nz HA Hf Fx Fy Fz.
  intros E Wx Wy Wz. destruct (estimate_reading p e E) as (-> & Ux & Uy & Uz & Q).
  apply (centres_voxels r Hr) in Wx, Wy, Wz. rewrite Q at 4. now apply reading_clearance.
Qed.
End Field.

(** ** Outer half voxels *)

Definition pulled (n : Z) (u : R) : R := if (n =? 1)%Z then u else Rmax (1 / 2) (Rmin u (IZR n - 1 / 2)).

Lemma pulled_ok n u : (1 <= n)%Z -> 0 <= u < IZR n ->
  0 <= pulled n u < IZR n /\ centred n (pulled n u) /\ Rabs (u - pulled n u) <= 1 / 2.
Proof.
  intros Hn Hu. unfold pulled, centred. destruct (n =? 1)%Z eqn:E.
  - split; [easy|]. split; [left; lia|]. rewrite Rminus_eq_0, Rabs_R0. lra.
  - assert (2 <= IZR n) by (apply IZR_le; lia). unfold Rmax, Rmin.
    destruct (Rle_dec u _); destruct (Rle_dec (1 / 2) _); (split; [lra|]; split; [right; lra|apply Rabs_le; lra]).
Qed.

Section Pull.
Variables (nx ny nz : Z) (ux uy uz : R) (F : idx -> R) (D : R).
Hypothesis (Nx : (1 <= nx)%Z) (Ny : (1 <= ny)%Z) (Nz : (1 <= nz)%Z).
Hypothesis (Ux : 0 <= ux < IZR nx) (Uy : 0 <= uy < IZR ny) (Uz : 0 <= uz < IZR nz).
Hypothesis HD : 0 <= D.
Hypothesis HF : forall i j, in_box nx ny nz i -> in_box nx ny nz j -> face_adjacent i j -> Rabs (F j - F i) <= D.

Lemma blend_bounded n g u B : (1 <= n)%Z -> 0 <= u < IZR n -> centred n u ->
  (forall k, (0 <= k < n)%Z -> Rabs (g k) <= B) -> Rabs (blend n g u) <= B.
Proof using.
  clear HF. intros Hn Hu Hc H. apply Rabs_le. destruct (blend_pick n g u Hn Hu Hc) as (k & (Hk & _) & L).
  destruct (blend_pick n (fun c => - g c) u Hn Hu Hc) as (k' & (Hk' & _) & L'). rewrite blend_opp in L'.
  apply H, Rabs_le_inv in Hk, Hk'. lra.
Qed.

Lemma average_pulled :
  Rabs (average nx ny nz ux uy uz F - average nx ny nz (pulled nx ux) (pulled ny uy) (pulled nz uz) F) <= 7 / 2 * D.
Proof using Nx Ny Nz Ux Uy Uz HD HF.
  destruct (pulled_ok nx ux Nx Ux) as (Px & Cx & Gx). destruct (pulled_ok ny uy Ny Uy) as (Py & Cy & Gy).
  destruct (pulled_ok nz uz Nz Uz) as (Pz & Cz & Gz).
  set (vx := pulled nx ux) in *. set (vy := pulled ny uy) in *. set (vz := pulled nz uz) in *.
  clearbody vx vy vz.
  assert (HB : forall a b c a' b' c', face_adjacent (a, b, c) (a', b', c') ->
    (0 <= a < nx)%Z -> (0 <= b < ny)%Z -> (0 <= c < nz)%Z -> (0 <= a' < nx)%Z -> (0 <= b' < ny)%Z -> (0 <= c' < nz)%Z ->
    Rabs (F (a', b', c') - F (a, b, c)) <= D).
  { intros. apply HF; [now repeat split|now repeat split|easy]. }
  assert (K1 : Rabs (average nx ny nz ux uy uz F - average nx ny nz vx uy uz F) <= 2 * (2 * D) * Rabs (ux - vx)).
  { unfold average. apply blend_lipschitz; try assumption; [lra|]. intros a Ha Ha'. rewrite blend_minus.
    apply blend_abs; try assumption. intros b Hb _. rewrite blend_minus.
    apply blend_abs; try assumption. intros c Hc _. apply HB; try lia. left. cbn. lia. }
  assert (K2 : Rabs (average nx ny nz vx uy uz F - average nx ny nz vx vy uz F) <= 2 * D * Rabs (uy - vy)).
  { unfold average. rewrite blend_minus. apply blend_bounded; try assumption. intros a Ha.
    apply blend_lipschitz; try assumption; [lra|]. intros b Hb Hb'. rewrite blend_minus.
    apply blend_abs; try assumption. intros c Hc _. apply HB; try lia. right. left. cbn. lia. }
  assert (K3 : Rabs (average nx ny nz vx vy uz F - average nx ny nz vx vy vz F) <= D * Rabs (uz - vz)).
  { unfold average. rewrite blend_minus. apply blend_bounded; try assumption. intros a Ha.
    rewrite blend_minus. apply blend_bounded; try assumption. intros b Hb.
    apply blend_lipschitz; try assumption. intros c Hc Hc'. apply HB; try lia. right. right. cbn. lia. }
  assert (M1 : D * Rabs (ux - vx) <= D * (1 / 2)) by (apply Rmult_le_compat_l; lra).
  assert (M2 : D * Rabs (uy - vy) <= D * (1 / 2)) by (apply Rmult_le_compat_l; lra).
  assert (M3 : D * Rabs (uz - vz) <= D * (1 / 2)) by (apply Rmult_le_compat_l; lra).
  apply Rabs_le_inv in K1, K2, K3. apply Rabs_le. lra.
Qed.
End Pull.

Section Everywhere.
Variables (r : R) (nx ny nz : Z) (filled : idx -> bool) (border : bool) (f : grid R).
Hypothesis Hr : 0 < r.
Hypothesis (Nx : (1 <= nx)%Z) (Ny : (1 <= ny)%Z) (Nz : (1 <= nz)%Z).
Hypothesis HA : accurate 0 r nx ny nz filled border f.

Lemma cell_dist_triangle i j k : cell_dist r i k <= cell_dist r i j + cell_dist r j k.
Proof using Hr. rewrite <- !(gap_mid r Hr). apply gap_triangle. Qed.

Lemma adjacent_dist i j : face_adjacent i j -> cell_dist r i j = r /\ cell_dist r j i = r.
Proof using.
  clear Hr HA. assert (S : forall i j, sqdist i j = 1%Z -> cell_dist r i j = r).
  { intros i' j' E. unfold cell_dist. rewrite E, sqrt_1. ring. }
  destruct i as [[x y] z], j as [[x' y'] z']. unfold face_adjacent. cbn [ix iy iz fst snd].
  intros [(-> & -> & ->)|[(-> & -> & ->)|(-> & -> & ->)]]; (split; apply S; unfold sqdist; lia).
Qed.

Lemma adjacent_values i j : in_box nx ny nz i -> in_box nx ny nz j -> face_adjacent i j ->
  Rabs (field_value f r j - field_value f r i) <= r.
Proof using Hr HA.
  intros Hi Hj Ha. destruct (adjacent_dist i j Ha) as (Dij & Dji).
  assert (E0 : 0 <= 0 <= 1 / 2) by lra.
  destruct (value_cases 0 r nx ny nz filled border f Hr E0 HA i Hi) as (k & Tk & Sk & Mk & Bk & _).
  destruct (value_cases 0 r nx ny nz filled border f Hr E0 HA j Hj) as (l & Tl & Sl & Ml & Bl & _).
  assert (P : forall a b, 1 <= IZR (sqdist a b) -> r <= cell_dist r a b).
  { intros a b H. unfold cell_dist. rewrite <- (Rmult_1_r r) at 1. apply Rmult_le_compat_l; [lra|].
    rewrite <- sqrt_1. now apply sqrt_le_1_alt. }
  pose proof (P _ _ Sk) as Pk. pose proof (P _ _ Sl) as Pl.
  destruct (Bool.bool_dec (filled i) (filled j)) as [E|E].
  - assert (T : forall m, opposite nx ny nz filled i m \/ extra border nx ny nz m <->
      opposite nx ny nz filled j m \/ extra border nx ny nz m) by (intros m; unfold opposite; rewrite E; tauto).
    apply T, Ml in Tk. apply T, Mk in Tl. pose proof (cell_dist_triangle i j l). pose proof (cell_dist_triangle j i k).
    rewrite E in Bk. apply Rabs_le. destruct (filled j); lra.
  - assert (T1 : opposite nx ny nz filled i j \/ extra border nx ny nz j) by (left; split; [easy|congruence]).
    assert (T2 : opposite nx ny nz filled j i \/ extra border nx ny nz i) by (left; split; easy).
    apply Mk in T1. apply Ml in T2. apply Rabs_le. destruct (filled i), (filled j); try easy; lra.
Qed.

Hypothesis (Hf : gwf f) (Fx : g_nx f = nx) (Fy : g_ny f = ny) (Fz : g_nz f = nz).
Variables (tg : qvec4 real_query -> qvec real_query) (tw ro : qvec real_query -> qvec real_query).

Lemma estimate_everywhere p e : estimate real_query (real_field f r tg tw ro) p = Answer e ->
  clearance 0 r nx ny nz filled border e (6 * r) (6 * r) (tg p).
Proof using Hr Nx Ny Nz HA Hf Fx Fy Fz.
  intros E. destruct (estimate_reading r nx ny nz f Hr Hf Fx Fy Fz tg tw ro p e E) as (Ee & Ux & Uy & Uz & Q).
  set (ux := fst (fst (tg p)) * / r) in *. set (uy := snd (fst (tg p)) * / r) in *. set (uz := snd (tg p) * / r) in *.
  clearbody ux uy uz. rewrite Q. clear Q E.
  destruct (pulled_ok nx ux Nx Ux) as (Px & Cx & Gx). destruct (pulled_ok ny uy Ny Uy) as (Py & Cy & Gy).
  destruct (pulled_ok nz uz Nz Uz) as (Pz & Cz & Gz).
  pose proof (average_pulled nx ny nz ux uy uz (field_value f r) r Nx Ny Nz Ux Uy Uz ltac:(lra) adjacent_values) as P.
  pose proof (reading_clearance 0 r nx ny nz filled border f Hr ltac:(lra) Nx Ny Nz HA _ _ _ Px Py Pz Cx Cy Cz) as C.
  unfold reading in *. rewrite <- Ee in P.
  set (vx := pulled nx ux) in *. set (vy := pulled ny uy) in *. set (vz := pulled nz uz) in *. clearbody vx vy vz.
  set (e' := average nx ny nz vx vy vz (field_value f r)) in *. clearbody e'. clear Ee.
  pose proof sqrt3_bounds as S3.
  assert (S3r : sqrt 3 * r <= 1733 / 1000 * r) by (apply Rmult_le_compat_r; lra).
  assert (G : gap (r * ux, r * uy, r * uz) (r * vx, r * vy, r * vz) <= sqrt 3 * (r / 2)).
  { assert (K : forall u v, Rabs (u - v) <= 1 / 2 -> Rabs (r * u - r * v) <= r / 2).
    { intros u v H. rewrite <- Rmult_minus_distr_l, Rabs_mult, (Rabs_pos_eq r) by lra.
      replace (r / 2) with (r * (1 / 2)) by field. apply Rmult_le_compat_l; lra. }
    apply gap_box; [lra|now apply K..]. }
  set (q := (r * ux, r * uy, r * uz)) in *. set (q' := (r * vx, r * vy, r * vz)) in *.
  apply Rabs_le_inv in P. destruct C as ((C1 & j & y & J1 & J2 & J3) & (C2 & k & z & K1 & K2 & K3)).
  split; split.
  - intros l w Hl Hw. specialize (C1 l w Hl Hw). pose proof (gap_triangle q' q w). rewrite (gap_sym q' q) in *. lra.
  - exists j, y. split; [easy|]. split; [easy|]. pose proof (gap_triangle q q' y).
    revert J3. unfold Rmax. destruct (Rle_dec e' 0), (Rle_dec e 0); lra.
  - intros l w Hl Hw. specialize (C2 l w Hl Hw). pose proof (gap_triangle q' q w). rewrite (gap_sym q' q) in *. lra.
  - exists k, z. split; [easy|]. split; [easy|]. pose proof (gap_triangle q q' z).
    revert K3. unfold Rmax. destruct (Rle_dec (- e') 0), (Rle_dec (- e) 0); lra.
Qed.
End Everywhere.
