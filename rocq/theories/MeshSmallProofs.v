(** Small triangles fill the voxels they are in, in binary64. *)
From Coq Require Import ZArith Reals List Bool Lia Lra.
From Flocq Require Import Core BinarySingleNaN.
From Verif Require Import Util Grid EdtFloat FloatModel SdfQueryModel SdfQueryArith SdfDoubleModel SdfDoubleSpec SdfDoubleProofs MeshModel MeshSpec MeshNearSpec MeshDoubleModel MeshNearProofs MeshNearTop.
From Verif Require RayGeoSpec PoseProofs.
Import ListNotations.
Local Open Scope R_scope.


(** ** Small triangles *)

Lemma difference_from_dist (q f d : pt) e : Rabs (px d - (px f - px q)) <= e -> Rabs (py d - (py f - py q)) <= e -> Rabs (pz d - (pz f - pz q)) <= e ->
  sqrt (dot d d) <= RayGeoSpec.dist q f + 4 * e.
Proof.
  intros X Y Z. assert (E : 0 <= e) by (eapply Rle_trans; [apply Rabs_pos|exact X]).
  set (p := (px q + px d, py q + py d, pz q + pz d) : pt).
  replace (sqrt (dot d d)) with (RayGeoSpec.dist q p).
  - apply PoseProofs.dist_close.
    + split; [|split]; rewrite Rminus_diag_eq, Rabs_R0 by reflexivity; exact E.
    + assert (S : forall x y w, Rabs (x - (y - w)) <= e -> Rabs (w + x - y) <= e) by (intros x y w H; replace (w + x - y) with (x - (y - w)) by ring; exact H).
      split; [|split]; apply S; assumption.
  - unfold RayGeoSpec.dist. apply f_equal. unfold dot, p, px, py, pz, RayGeoSpec.px, RayGeoSpec.py, RayGeoSpec.pz. cbn [fst snd]. ring.
Qed.

Lemma clamp_finite fl tri (x : b64) : is_finite x = true -> let t := m_clamp (double_mesh fl tri) x in is_finite t = true /\ 0 <= B2R t <= 1.
Proof.
  intros Fx. cbn zeta. change (m_clamp (double_mesh fl tri) x) with
    (if b64_ltb x (B754_zero false) then B754_zero false else if b64_ltb (b64_lit 1 0) x then b64_lit 1 0 else x).
  destruct (lit_val 1 0 ltac:(reflexivity) ltac:(lia)) as (F1 & V1). cbn [bpow] in V1. rewrite Rmult_1_r in V1.
  unfold b64_ltb. rewrite (Bltb_correct 53 1024 x (B754_zero false) Fx eq_refl), (Bltb_correct 53 1024 (b64_lit 1 0) x F1 Fx), V1. cbn [B2R].
  destruct (Rlt_bool_spec (B2R x) 0); [split; [reflexivity|cbn [B2R]; lra]|]. destruct (Rlt_bool_spec 1 (B2R x)); [split; [exact F1|lra]|split; [exact Fx|lra]].
Qed.

(** A sphere is convex. *)
Lemma dist_segment q a b t m : 0 <= t <= 1 -> RayGeoSpec.dist q a <= m -> RayGeoSpec.dist q b <= m -> RayGeoSpec.dist q (blend a b a t 0) <= m.
Proof.
  intros Ht Ha Hb. assert (M0 : 0 <= m) by (eapply Rle_trans; [|exact Ha]; apply sqrt_pos).
  destruct q as ((q1, q2), q3), a as ((a1, a2), a3), b as ((b1, b2), b3).
  unfold RayGeoSpec.dist, RayGeoSpec.px, RayGeoSpec.py, RayGeoSpec.pz, blend, px, py, pz in *. cbn [fst snd] in *.
  assert (S : forall X, 0 <= X -> sqrt X <= m -> X <= m * m).
  { intros X HX H. rewrite <- (sqrt_sqrt X HX). apply Rmult_le_compat; try apply sqrt_pos; exact H. }
  assert (P : forall x, 0 <= x * x) by (intros x; apply Rle_0_sqr).
  apply S in Ha; [|pose proof (P (a1 - q1)); pose proof (P (a2 - q2)); pose proof (P (a3 - q3)); lra].
  apply S in Hb; [|pose proof (P (b1 - q1)); pose proof (P (b2 - q2)); pose proof (P (b3 - q3)); lra].
  rewrite <- (sqrt_square m M0). apply sqrt_le_1_alt.
  set (A := (a1 - q1) * (a1 - q1) + (a2 - q2) * (a2 - q2) + (a3 - q3) * (a3 - q3)) in *.
  set (B := (b1 - q1) * (b1 - q1) + (b2 - q2) * (b2 - q2) + (b3 - q3) * (b3 - q3)) in *.
  set (C := (b1 - a1) * (b1 - a1) + (b2 - a2) * (b2 - a2) + (b3 - a3) * (b3 - a3)).
  assert (C0 : 0 <= C) by (unfold C; pose proof (P (b1 - a1)); pose proof (P (b2 - a2)); pose proof (P (b3 - a3)); lra).
  match goal with |- ?x <= _ => replace x with ((1 - t) * A + t * B - t * (1 - t) * C) by (unfold A, B, C; ring) end.
  assert (0 <= t * (1 - t) * C) by (apply Rmult_le_pos; [apply Rmult_le_pos; lra|exact C0]).
  assert ((1 - t) * A <= (1 - t) * (m * m)) by (apply Rmult_le_compat_l; lra).
  assert (t * B <= t * (m * m)) by (apply Rmult_le_compat_l; lra). lra.
Qed.

Lemma thick_turn l v a b c : thick l v a b c -> thick l v b c a.
Proof.
  intros (T1 & T2 & T3 & T4). split; [exact T2|]. split; [exact T3|]. split; [exact T1|]. cbv zeta in *.
  replace (rcross (minus c b) (minus a b)) with (rcross (minus b a) (minus c a)); [exact T4|].
  destruct a as ((a1, a2), a3), b as ((b1, b2), b3), c as ((c1, c2), c3). unfold rcross, minus, px, py, pz. cbn [fst snd]. apply f_equal2; [apply f_equal2|]; ring.
Qed.

Lemma thick_edge l v a b c : 0 < l -> thick l v a b c -> v * (l * l) <= 3 * dot (minus b a) (minus b a).
Proof.
  intros Lp ((X1 & X2 & X3) & _ & (Y1 & Y2 & Y3) & T). cbv zeta in T. assert (Ll : 0 < l * l) by (apply Rmult_lt_0_compat; exact Lp).
  assert (S : forall x, Rabs x <= l -> x * x <= l * l).
  { intros x Hx. rewrite <- (Rabs_pos_eq (x * x)) by apply Rle_0_sqr. rewrite Rabs_mult. apply Rmult_le_compat; try apply Rabs_pos; exact Hx. }
  apply S in Y1, Y2, Y3. set (u := minus b a) in *. set (w := minus c a) in *.
  assert (W : dot w w <= 3 * (l * l)).
  { unfold dot, w, minus, px, py, pz in *. cbn [fst snd] in *. lra. }
  assert (N : dot (rcross u w) (rcross u w) = dot u u * dot w w - dot u w * dot u w) by (unfold dot, rcross, px, py, pz; cbn [fst snd]; ring).
  assert (U0 : 0 <= dot u u) by (unfold dot; pose proof (Rle_0_sqr (px u)); pose proof (Rle_0_sqr (py u)); pose proof (Rle_0_sqr (pz u)); unfold Rsqr in *; lra).
  assert (D0 : 0 <= dot u w * dot u w) by apply Rle_0_sqr.
  assert (UW : dot u u * dot w w <= dot u u * (3 * (l * l))) by (apply Rmult_le_compat_l; lra).
  apply Rmult_le_reg_r with (l * l); [exact Ll|]. lra.
Qed.

(** The point taken on an edge whose ends are clearly near. *)
Lemma segment_hit fl tri (v w q : b64 * b64 * b64) res l h b f : let M := double_mesh fl tri in
  range (-100) 100 l -> l <= h <= bpow radix2 20 * l -> 0 < b <= bpow radix2 120 -> / 1024 <= f <= 1 -> finite3 v -> finite3 w -> finite3 q ->
  is_finite res = true -> bpow radix2 (-100) <= B2R res <= bpow radix2 100 ->
  within_each b (reals3 v) (0, 0, 0) -> within_each l (reals3 w) (reals3 v) -> within_each h (reals3 q) (reals3 v) ->
  f * (l * l) <= 3 * dot (minus (reals3 w) (reals3 v)) (minus (reals3 w) (reals3 v)) ->
  let m := sqrt 3 / 2 * B2R res - 100 * (u53 * B2R res) - 4 * (20 * (u53 * h) + 6 * (u53 * b)) in
  RayGeoSpec.dist (reals3 q) (reals3 v) <= m -> RayGeoSpec.dist (reals3 q) (reals3 w) <= m ->
  q_leb (m_query M) (vsq M (vsub M (closest_on_segment M v w q) q)) (m_radius_sq M res) = true.
Proof.
  intros M Hl Hh Hb Hf Fv Fw Fq Fr Hr (B1 & B2 & B3) (D1 & D2 & D3) (C1 & C2 & C3) L m Hv Hw. subst M.
  pose proof u53_pos as U. pose proof u53_tiny as Ut.
  assert (Rh : range (-100) 120 h).
  { destruct Hl as (A & B). split; [lra|]. apply Rle_trans with (bpow radix2 20 * bpow radix2 100); [|rewrite <- bpow_plus; right; reflexivity].
    apply Rle_trans with (bpow radix2 20 * l); [lra|]. apply Rmult_le_compat_l; [apply bpow_ge_0|exact B]. }
  pose proof (range_pos _ _ _ Hl) as Lp. pose proof (range_pos _ _ _ Rh) as Hp. assert (Ll : 0 < l * l) by (apply Rmult_lt_0_compat; exact Lp).
  assert (Lh : 0 < l * h) by (apply Rmult_lt_0_compat; assumption).
  pose proof (range_mul _ _ _ _ _ _ Hl Hl) as R1. pose proof (range_mul _ _ _ _ _ _ Hl Rh) as R2.
  assert (f1 : fair l) by (apply (range_fair _ _ _ Hl); lia). assert (f2 : fair h) by (apply (range_fair _ _ _ Rh); lia).
  assert (f3 : fair (l * l)) by (apply (range_fair _ _ _ R1); lia). assert (f4 : fair (l * l + l * l)) by (apply (range_fair _ _ _ (range_twice _ _ _ R1)); lia).
  assert (f5 : fair (l * l + (l * l + l * l))) by (apply (range_fair _ _ _ (range_thrice _ _ _ R1)); lia).
  assert (f6 : fair (l * h)) by (apply (range_fair _ _ _ R2); lia). assert (f7 : fair (l * h + l * h)) by (apply (range_fair _ _ _ (range_twice _ _ _ R2)); lia).
  assert (f8 : fair (l * h + (l * h + l * h))) by (apply (range_fair _ _ _ (range_thrice _ _ _ R2)); lia).
  pose proof (ap3_diff fl tri w v l f1 Fw Fv D1 D2 D3) as AB. pose proof (ap3_diff fl tri q v h f2 Fq Fv C1 C2 C3) as AQ.
  pose proof (ap_dot fl tri _ _ _ _ l h 2 2 f6 f7 f8 Lp Hp ltac:(lra) ltac:(lra) AB AQ) as AN.
  pose proof (ap_dot fl tri _ _ _ _ l l 2 2 f3 f4 f5 Lp Lp ltac:(lra) ltac:(lra) AB AB) as AD.
  assert (Nb := fun A B => ap_bound _ _ _ _ A B AN). specialize (Nb ltac:(lra) ltac:(lra)).
  destruct AN as (FN & _ & _), AD as (FD & _ & ED).
  set (nn := vdot (double_mesh fl tri) (vsub (double_mesh fl tri) w v) (vsub (double_mesh fl tri) q v)) in *.
  set (dd := vdot (double_mesh fl tri) (vsub (double_mesh fl tri) w v) (vsub (double_mesh fl tri) w v)) in *.
  set (DD := dot (minus (reals3 w) (reals3 v)) (minus (reals3 w) (reals3 v))) in *. apply Rabs_le_inv in ED.
  assert (DL : f * (l * l) / 4 <= B2R (dd : b64)).
  { assert (u53 * (l * l) <= / 1000000000 * (l * l)) by (apply Rmult_le_compat_r; lra). assert (/ 1024 * (l * l) <= f * (l * l)) by (apply Rmult_le_compat_r; lra). lra. }
  assert (FL : 0 < f * (l * l) / 4) by (assert (0 < f * (l * l)) by (apply Rmult_lt_0_compat; lra); lra).
  assert (Q : Rabs (B2R (nn : b64) / B2R (dd : b64)) <= huge).
  { unfold Rdiv. rewrite Rabs_mult. assert (0 < / B2R (dd : b64)) by (apply Rinv_0_lt_compat; lra). rewrite (Rabs_pos_eq (/ _)) by lra.
    assert (I : / B2R (dd : b64) <= / (f * (l * l) / 4)) by (apply Rinv_le; lra).
    apply Rle_trans with (4 * (l * h) * / (f * (l * l) / 4)).
    - apply Rmult_le_compat; [apply Rabs_pos|lra|lra|exact I].
    - replace (4 * (l * h) * / (f * (l * l) / 4)) with (16 * (h * / l) * / f) by (field; lra).
      assert (h * / l <= 1048576).
      { replace 1048576 with (bpow radix2 20 * l * / l) by (change (bpow radix2 20) with 1048576; field; lra).
        apply Rmult_le_compat_r; [left; apply Rinv_0_lt_compat; exact Lp|lra]. }
      assert (/ f <= 1024) by (replace 1024 with (/ / 1024) by field; apply Rinv_le; lra).
      assert (0 < / f) by (apply Rinv_0_lt_compat; lra). assert (0 <= h * / l) by (apply Rmult_le_pos; [lra|left; apply Rinv_0_lt_compat; exact Lp]).
      apply Rle_trans with (16 * 1048576 * 1024); [apply Rmult_le_compat; lra|]. replace (16 * 1048576 * 1024) with (bpow radix2 34) by (cbn; lra). apply bpow_le. lia. }
  destruct (div_val nn dd _ _ (conj FN eq_refl) (conj FD eq_refl) ltac:(lra) Q) as (FQ & _).
  destruct (clamp_finite fl tri (b64_div nn dd) FQ) as (Ft & Tb).
  change (closest_on_segment (double_mesh fl tri) v w q) with (vadd (double_mesh fl tri) v (vscale (double_mesh fl tri) (vsub (double_mesh fl tri) w v) (m_clamp (double_mesh fl tri) (b64_div nn dd)))).
  set (t := m_clamp (double_mesh fl tri) (b64_div nn dd)) in *. clearbody t. clear - U Lp Hl Hh Rh Hb Fv Fw Fq Fr Hr B1 B2 B3 D1 D2 D3 C1 C2 C3 Hv Hw Ft Tb Hp.
  pose proof (dist_segment _ _ _ _ _ Tb Hv Hw) as DS.
  destruct Fv as (V1 & V2 & V3), Fw as (W1 & W2 & W3), Fq as (Q1 & Q2 & Q3).
  destruct v as ((vx, vy), vz), w as ((wx, wy), wz), q as ((qx', qy'), qz').
  unfold reals3, px, py, pz in *. cbn [fst snd] in *. rewrite Rminus_0_r in B1, B2, B3.
  assert (LH : forall x, Rabs x <= l -> Rabs x <= h) by (intros x Hx; lra).
  destruct (segment_coordinate vx wx qx' t h b Rh Hb V1 W1 Q1 Ft B1 (LH _ D1) C1 Tb) as (X1 & X2 & X3).
  destruct (segment_coordinate vy wy qy' t h b Rh Hb V2 W2 Q2 Ft B2 (LH _ D2) C2 Tb) as (Y1 & Y2 & Y3).
  destruct (segment_coordinate vz wz qz' t h b Rh Hb V3 W3 Q3 Ft B3 (LH _ D3) C3 Tb) as (Z1 & Z2 & Z3).
  set (dx := b64_sub (b64_add vx (b64_mul (b64_sub wx vx) t)) qx') in *.
  set (dy := b64_sub (b64_add vy (b64_mul (b64_sub wy vy) t)) qy') in *.
  set (dz := b64_sub (b64_add vz (b64_mul (b64_sub wz vz) t)) qz') in *.
  apply (length_hit fl tri res (dx, dy, dz) Fr Hr (conj X1 (conj Y1 Z1)) X2 Y2 Z2).
  assert (DX : sqrt (dot (reals3 (dx, dy, dz)) (reals3 (dx, dy, dz))) <=
    RayGeoSpec.dist (B2R qx', B2R qy', B2R qz') (blend (B2R vx, B2R vy, B2R vz) (B2R wx, B2R wy, B2R wz) (B2R vx, B2R vy, B2R vz) (B2R t) 0) + 4 * (20 * (u53 * h) + 6 * (u53 * b))).
  { apply difference_from_dist; unfold blend, reals3, px, py, pz; cbn [fst snd].
    + replace (B2R vx + B2R t * (B2R wx - B2R vx) + 0 * (B2R vx - B2R vx)) with (B2R vx + B2R t * (B2R wx - B2R vx)) by ring. exact X3.
    + replace (B2R vy + B2R t * (B2R wy - B2R vy) + 0 * (B2R vy - B2R vy)) with (B2R vy + B2R t * (B2R wy - B2R vy)) by ring. exact Y3.
    + replace (B2R vz + B2R t * (B2R wz - B2R vz) + 0 * (B2R vz - B2R vz)) with (B2R vz + B2R t * (B2R wz - B2R vz)) by ring. exact Z3. }
  unfold m in DS. clear - DX DS. lra.
Qed.

(** The point taken on the plane if a corner is clearly near. *)
Lemma plane_hit_corner fl tri (v1 v2 v3 q : b64 * b64 * b64) res l h b v : let M := double_mesh fl tri in
  range (-100) 100 l -> l <= h <= bpow radix2 20 * l -> l <= b <= bpow radix2 120 -> / 1024 <= v <= 1 ->
  finite3 v1 -> finite3 v2 -> finite3 v3 -> finite3 q -> is_finite res = true -> bpow radix2 (-100) <= B2R res <= bpow radix2 100 ->
  thick l v (reals3 v1) (reals3 v2) (reals3 v3) -> within_each b (reals3 v1) (0, 0, 0) -> within_each h (reals3 q) (reals3 v1) ->
  RayGeoSpec.dist (reals3 q) (reals3 v1) <= sqrt 3 / 2 * B2R res - 100 * (u53 * B2R res) - 4 * (5400 * (u53 * (h * / v * / v)) + 6 * (u53 * b)) ->
  q_leb (m_query M) (vsq M (vsub M (vadd M v1 (m_reject M (vcross M (vsub M v2 v1) (vsub M v3 v1)) (vsub M q v1))) q)) (m_radius_sq M res) = true.
Proof.
  intros M Hl Hh Hb Hv F1 F2 F3 Fq Fr Hr T B1 Q1 Dist. subst M.
  destruct (plane_difference fl tri v1 v2 v3 q l h b v Hl Hh Hb Hv F1 F2 F3 Fq T B1 Q1) as (d & Ed & Fd & D1 & D2 & D3 & X3 & Y3 & Z3).
  rewrite Ed. clear Ed. apply (length_hit fl tri res d Fr Hr Fd D1 D2 D3).
  destruct T as (_ & _ & _ & T4). cbv zeta in T4. pose proof (range_pos _ _ _ Hl) as Lp.
  assert (Ll : 0 < l * l) by (apply Rmult_lt_0_compat; exact Lp).
  set (a := reals3 v1) in *. set (n := rcross (minus (reals3 v2) a) (minus (reals3 v3) a)) in *. set (qq := reals3 q) in *. set (D := dot n n) in *.
  assert (Wp : 0 < v * (l * l * (l * l))) by (apply Rmult_lt_0_compat; [lra|apply Rmult_lt_0_compat; exact Ll]).
  assert (Dp : 0 < D) by lra. set (k := dot n (minus qq a) / D) in *.
  set (f := (px qq - k * px n, py qq - k * py n, pz qq - k * pz n) : pt).
  assert (DF : sqrt (dot (reals3 d) (reals3 d)) <= RayGeoSpec.dist qq f + 4 * (5400 * (u53 * (h * / v * / v)) + 6 * (u53 * b))).
  { apply difference_from_dist.
    - replace (px f - px qq) with (- (k * px n)) by (unfold f, px; cbn [fst snd]; ring). exact X3.
    - replace (py f - py qq) with (- (k * py n)) by (unfold f, py; cbn [fst snd]; ring). exact Y3.
    - replace (pz f - pz qq) with (- (k * pz n)) by (unfold f, pz; cbn [fst snd]; ring). exact Z3. }
  assert (Near : RayGeoSpec.dist qq f <= RayGeoSpec.dist qq a).
  { unfold RayGeoSpec.dist. apply sqrt_le_1_alt. set (w := minus qq a) in *.
    assert (G1 : k * D = dot n w) by (unfold k; field; lra).
    assert (G2 : k * k * D <= dot w w).
    { apply Rmult_le_reg_r with D; [exact Dp|]. replace (k * k * D * D) with ((k * D) * (k * D)) by ring. rewrite G1.
      assert (0 <= dot (rcross n w) (rcross n w)) by (unfold dot; pose proof (Rle_0_sqr (px (rcross n w))); pose proof (Rle_0_sqr (py (rcross n w))); pose proof (Rle_0_sqr (pz (rcross n w))); unfold Rsqr in *; lra).
      replace (dot (rcross n w) (rcross n w)) with (dot w w * D - dot n w * dot n w) in H by (unfold D, dot, rcross, px, py, pz; cbn [fst snd]; ring). lra. }
    replace ((RayGeoSpec.px f - RayGeoSpec.px qq) * (RayGeoSpec.px f - RayGeoSpec.px qq) + (RayGeoSpec.py f - RayGeoSpec.py qq) * (RayGeoSpec.py f - RayGeoSpec.py qq) +
      (RayGeoSpec.pz f - RayGeoSpec.pz qq) * (RayGeoSpec.pz f - RayGeoSpec.pz qq)) with (k * k * D)
      by (unfold f, D, dot, RayGeoSpec.px, RayGeoSpec.py, RayGeoSpec.pz, px, py, pz; cbn [fst snd]; ring).
    eapply Rle_trans; [exact G2|]. right. unfold w, dot, minus, RayGeoSpec.px, RayGeoSpec.py, RayGeoSpec.pz, px, py, pz. cbn [fst snd]. ring. }
  clear - DF Near Dist. lra.
Qed.

Lemma hit_all (M : mesh_arith) (m : mmap M) v1 v2 v3 n i : let q := mm_centre M m i in
  let near c := q_leb (m_query M) (vsq M (vsub M c q)) (m_radius_sq M (mm_res M m)) = true in
  near (vadd M v1 (m_reject M n (vsub M q v1))) -> near (closest_on_segment M v1 v2 q) -> near (closest_on_segment M v2 v3 q) -> near (closest_on_segment M v3 v1 q) ->
  voxel_hit M m v1 v2 v3 n i = true.
Proof.
  intros q near H0 H1 H2 H3. unfold voxel_hit, closest_on_triangle. cbv zeta. fold q. destruct (projects_inside M v1 v2 v3 q); [exact H0|].
  destruct (_ && _); [exact H1|]. destruct (_ && _); [exact H2|exact H3].
Qed.

(** A voxel with all three corners clearly near passes the test. *)
Lemma small_hits fl tri (v1 v2 v3 q : b64 * b64 * b64) (res : b64) l h b v : let M := double_mesh fl tri in
  let r := B2R res in
  range (-100) 100 l -> l <= h <= bpow radix2 20 * l -> l <= b <= bpow radix2 120 -> / 1024 <= v <= 1 ->
  finite3 v1 -> finite3 v2 -> finite3 v3 -> finite3 q -> is_finite res = true -> bpow radix2 (-100) <= r <= bpow radix2 100 ->
  thick l v (reals3 v1) (reals3 v2) (reals3 v3) ->
  (forall w, In w [v1; v2; v3] -> within_each b (reals3 w) (0, 0, 0) /\ within_each h (reals3 q) (reals3 w) /\
     RayGeoSpec.dist (reals3 q) (reals3 w) + 32768 * (u53 * (h / (v * v) + b + r)) <= sqrt 3 / 2 * r) ->
  let near c := q_leb (m_query M) (vsq M (vsub M c q)) (m_radius_sq M res) = true in
  near (vadd M v1 (m_reject M (vcross M (vsub M v2 v1) (vsub M v3 v1)) (vsub M q v1))) /\
  near (closest_on_segment M v1 v2 q) /\ near (closest_on_segment M v2 v3 q) /\ near (closest_on_segment M v3 v1 q).
Proof.
  intros M r Hl Hh Hb Hv F1 F2 F3 Fq Fr Hr T H near. subst M near. pose proof u53_pos as U. pose proof (range_pos _ _ _ Hl) as Lp.
  destruct (H v1 ltac:(cbn; auto)) as (B1 & Q1 & D1). destruct (H v2 ltac:(cbn; auto)) as (B2 & Q2 & D2). destruct (H v3 ltac:(cbn; auto)) as (B3 & Q3 & D3). clear H.
  assert (Rp : 0 < r) by (pose proof (bpow_gt_0 radix2 (-100)); lra).
  assert (J : 1 <= / v) by (rewrite <- Rinv_1; apply Rinv_le; lra).
  replace (h / (v * v)) with (h * / v * / v) in D1, D2, D3 by (field; lra).
  assert (J1 : h <= h * / v) by (rewrite <- (Rmult_1_r h) at 1; apply Rmult_le_compat_l; lra).
  assert (J2 : h * / v <= h * / v * / v) by (rewrite <- (Rmult_1_r (h * / v)) at 1; apply Rmult_le_compat_l; lra).
  assert (G : forall x, 0 <= x -> 0 <= u53 * x) by (intros x Hx; apply Rmult_le_pos; lra).
  assert (G1 : u53 * h <= u53 * (h * / v * / v)) by (apply Rmult_le_compat_l; lra).
  pose proof (G h ltac:(lra)) as G3. pose proof (G b ltac:(lra)) as G4. pose proof (G r ltac:(lra)) as G5.
  set (m := sqrt 3 / 2 * r - 100 * (u53 * r) - 4 * (20 * (u53 * h) + 6 * (u53 * b))).
  assert (E1 : RayGeoSpec.dist (reals3 q) (reals3 v1) <= m) by (unfold m; lra). assert (E2 : RayGeoSpec.dist (reals3 q) (reals3 v2) <= m) by (unfold m; lra).
  assert (E3 : RayGeoSpec.dist (reals3 q) (reals3 v3) <= m) by (unfold m; lra).
  assert (Hb' : 0 < b <= bpow radix2 120) by lra.
  pose proof (thick_turn _ _ _ _ _ T) as T'. pose proof (thick_turn _ _ _ _ _ T') as T''.
  pose proof (thick_edge _ _ _ _ _ Lp T) as L1. pose proof (thick_edge _ _ _ _ _ Lp T') as L2. pose proof (thick_edge _ _ _ _ _ Lp T'') as L3.
  split; [|split; [|split]].
  - apply (plane_hit_corner fl tri v1 v2 v3 q res l h b v Hl Hh Hb Hv F1 F2 F3 Fq Fr Hr T B1 Q1). clear - D1 G1 G3 G4 G5. fold r. lra.
  - exact (segment_hit fl tri v1 v2 q res l h b v Hl Hh Hb' Hv F1 F2 Fq Fr Hr B1 (proj1 T) Q1 L1 E1 E2).
  - exact (segment_hit fl tri v2 v3 q res l h b v Hl Hh Hb' Hv F2 F3 Fq Fr Hr B2 (proj1 T') Q2 L2 E2 E3).
  - exact (segment_hit fl tri v3 v1 q res l h b v Hl Hh Hb' Hv F3 F1 Fq Fr Hr B3 (proj1 T'') Q3 L3 E3 E1).
Qed.
