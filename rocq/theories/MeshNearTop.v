(** Voxels filled by the mesh rasterizer in binary64 are near the triangle. *)
From Coq Require Import ZArith Reals List Bool Lia Lra.
From Flocq Require Import Core BinarySingleNaN.
From Verif Require Import Util Grid EdtFloat FloatModel SdfQueryModel SdfQueryArith SdfDoubleModel SdfDoubleSpec SdfDoubleProofs MeshModel MeshSpec MeshNearSpec MeshDoubleModel MeshNearProofs.
From Verif Require RayGeoSpec PoseProofs.
Import ListNotations.
Local Open Scope R_scope.

Notation close := PoseProofs.close.

(** ** Ranges *)

Definition range (e f : Z) (x : R) : Prop := bpow radix2 e <= x <= bpow radix2 f.

Lemma range_pos e f x : range e f x -> 0 < x.
Proof. intros (H & _). pose proof (bpow_gt_0 radix2 e). lra. Qed.

Lemma range_mul e f x e' f' y : range e f x -> range e' f' y -> range (e + e') (f + f') (x * y).
Proof.
  intros H H'. pose proof (range_pos _ _ _ H). pose proof (range_pos _ _ _ H'). destruct H, H'. split; rewrite bpow_plus; apply Rmult_le_compat; try apply bpow_ge_0; lra.
Qed.

Lemma range_twice e f x : range e f x -> range e (f + 1) (x + x).
Proof.
  intros H. pose proof (range_pos _ _ _ H). destruct H. split; [lra|]. rewrite bpow_plus. change (bpow radix2 1) with 2. lra.
Qed.

Lemma range_thrice e f x : range e f x -> range e (f + 2) (x + (x + x)).
Proof.
  intros H. pose proof (range_pos _ _ _ H). destruct H. split; [lra|]. rewrite bpow_plus. change (bpow radix2 2) with 4. lra.
Qed.

Lemma range_fair e f x : range e f x -> (-900 <= e)%Z -> (f <= 900)%Z -> fair x.
Proof.
  intros (H1 & H2) He Hf. split; eapply Rle_trans; [|exact H1|exact H2|]; apply bpow_le; assumption.
Qed.

(** ** The projection onto the plane *)

Lemma mesh_quotient_near n n' d d' m v j : 0 <= m -> / 1024 <= v <= 1 -> j * v = 1 -> v <= d ->
  Rabs n <= 6 * m -> Rabs (n' - n) <= 138 * (u53 * m) -> Rabs (d' - d) <= 384 * u53 ->
  0 < d' /\ 1 <= j <= 1024 /\ Rabs (n / d) <= 6 * (m * j) /\ Rabs (n' / d' - n / d) <= 2450 * (u53 * (m * j * j)).
Proof.
  intros Hm Hv Hj Hd Hn En Ed. pose proof u53_pos as U. pose proof u53_tiny as Ut. apply Rabs_le_inv in Ed.
  assert (J : j = / v) by (apply Rmult_eq_reg_r with v; [rewrite Hj; field; lra|lra]).
  assert (J1 : 1 <= j <= 1024).
  { rewrite J. split; [rewrite <- Rinv_1; apply Rinv_le; lra|]. replace 1024 with (/ / 1024) by field. apply Rinv_le; lra. }
  assert (D1 : 999 / 1000 * v <= d') by lra. assert (Dp : 0 < d') by lra.
  assert (I1 : / d <= j) by (rewrite J; apply Rinv_le; lra).
  assert (I2 : / d' <= 1002 / 1000 * j).
  { apply Rle_trans with (/ (999 / 1000 * v)); [apply Rinv_le; lra|]. rewrite Rinv_mult. rewrite <- J.
    apply Rmult_le_compat_r; lra. }
  assert (P1 : 0 < / d) by (apply Rinv_0_lt_compat; lra). assert (P2 : 0 < / d') by (apply Rinv_0_lt_compat; lra).
  assert (K : Rabs (n / d) <= 6 * (m * j)).
  { unfold Rdiv. rewrite Rabs_mult, (Rabs_pos_eq (/ d)) by lra. rewrite <- Rmult_assoc. apply Rmult_le_compat; try apply Rabs_pos; lra. }
  split; [exact Dp|]. split; [exact J1|]. split; [exact K|].
  replace (n' / d' - n / d) with (((n' - n) + n / d * (d - d')) * / d') by (field; lra).
  rewrite Rabs_mult, (Rabs_pos_eq (/ d')) by lra.
  assert (T : Rabs (n' - n + n / d * (d - d')) <= 2442 * (u53 * (m * j))).
  { eapply Rle_trans; [apply Rabs_triang|]. rewrite Rabs_mult.
    assert (Rabs (n / d) * Rabs (d - d') <= 6 * (m * j) * (384 * u53)) by (apply Rmult_le_compat; try apply Rabs_pos; [exact K|apply Rabs_le; lra]).
    assert (u53 * m <= u53 * (m * j)).
    { apply Rmult_le_compat_l; [lra|]. rewrite <- (Rmult_1_r m) at 1. apply Rmult_le_compat_l; lra. }
    lra. }
  assert (Z : 0 <= u53 * (m * j)) by (repeat apply Rmult_le_pos; lra).
  apply Rle_trans with (2442 * (u53 * (m * j)) * (1002 / 1000 * j)); [apply Rmult_le_compat; try apply Rabs_pos; lra|].
  replace (2442 * (u53 * (m * j)) * (1002 / 1000 * j)) with (2442 * 1002 / 1000 * (u53 * (m * j) * j)) by field.
  replace (u53 * (m * j * j)) with (u53 * (m * j) * j) by ring. apply Rmult_le_compat_r; [apply Rmult_le_pos|]; lra.
Qed.

(** The quotient in VectorRejection. *)
Lemma plane_quotient (nn dd : b64) N D l h v j : range (-100) 100 l -> l <= h <= bpow radix2 20 * l ->
  / 1024 <= v <= 1 -> j * v = 1 -> v * (l * l * (l * l)) <= D ->
  ap nn N ((l * l + l * l) * h + ((l * l + l * l) * h + (l * l + l * l) * h)) 23 ->
  ap dd D ((l * l + l * l) * (l * l + l * l) + ((l * l + l * l) * (l * l + l * l) + (l * l + l * l) * (l * l + l * l))) 32 ->
  let m := h * / (l * l) in
  0 < m /\ 1 <= j <= 1024 /\ is_finite (b64_div nn dd) = true /\ Rabs (N / D) <= 6 * (m * j) /\
  Rabs (B2R (b64_div nn dd) - N / D) <= 2460 * (u53 * (m * j * j)).
Proof.
  intros Hl Hh Hv Hj HD (Fn & Nb & En) (Fd & _ & Ed) m. pose proof u53_pos as U. pose proof u53_tiny as Ut.
  pose proof (range_pos _ _ _ Hl) as Lp. assert (Ll : 0 < l * l) by (apply Rmult_lt_0_compat; exact Lp).
  set (W := l * l * (l * l)) in *. assert (Wp : 0 < W) by (apply Rmult_lt_0_compat; exact Ll).
  set (w := / W). assert (Hw : w * W = 1) by (unfold w; field; lra). assert (wp : 0 < w) by (apply Rinv_0_lt_compat; exact Wp).
  assert (Mp : 0 < m) by (apply Rmult_lt_0_compat; [lra|apply Rinv_0_lt_compat; exact Ll]).
  assert (ML : m * (l * l) = h) by (unfold m; field; lra).
  assert (MW : m * W = l * l * h) by (rewrite <- ML; unfold W; ring).
  assert (Sc : forall x c, Rabs x <= c * W -> Rabs (x * w) <= c).
  { intros x c Hx. rewrite Rabs_mult, (Rabs_pos_eq w) by lra. replace c with (c * W * w) by (rewrite Rmult_assoc, (Rmult_comm W), Hw; ring). apply Rmult_le_compat_r; lra. }
  assert (Q1 : Rabs (N * w) <= 6 * m).
  { apply Sc. eapply Rle_trans; [exact Nb|]. rewrite Rmult_assoc, MW. lra. }
  assert (Q2 : Rabs (B2R nn * w - N * w) <= 138 * (u53 * m)).
  { replace (B2R nn * w - N * w) with ((B2R nn - N) * w) by ring. apply Sc. eapply Rle_trans; [exact En|].
    replace (138 * (u53 * m) * W) with (138 * u53 * (m * W)) by ring. rewrite MW. lra. }
  assert (Q3 : Rabs (B2R dd * w - D * w) <= 384 * u53).
  { replace (B2R dd * w - D * w) with ((B2R dd - D) * w) by ring. apply Sc. eapply Rle_trans; [exact Ed|]. unfold W. lra. }
  assert (Q4 : v <= D * w).
  { replace v with (v * W * w) by (rewrite Rmult_assoc, (Rmult_comm W), Hw; ring). apply Rmult_le_compat_r; lra. }
  destruct (mesh_quotient_near (N * w) (B2R nn * w) (D * w) (B2R dd * w) m v j ltac:(lra) Hv Hj Q4 Q1 Q2 Q3) as (Dp & J1 & K & E).
  assert (Dpos : 0 < B2R dd).
  { destruct (Rle_or_lt (B2R dd) 0) as [X|X]; [|exact X]. exfalso. assert (B2R dd * w <= 0 * w) by (apply Rmult_le_compat_r; lra). lra. }
  assert (Dpos' : 0 < D) by (assert (0 < v * W) by (apply Rmult_lt_0_compat; lra); lra).
  replace (N * w / (D * w)) with (N / D) in * by (field; split; lra).
  replace (B2R nn * w / (B2R dd * w)) with (B2R nn / B2R dd) in * by (field; split; lra).
  split; [exact Mp|]. split; [exact J1|].
  assert (Hmr : fair m).
  { unfold m. assert (R1 : range (-200) 200 (l * l)) by (apply (range_mul (-100) 100 l (-100) 100 l); exact Hl).
    assert (R2 : range (-200) 200 (/ (l * l))).
    { destruct R1 as (A & B). change (-200)%Z with (- (200))%Z. change 200%Z with (- - (200))%Z at 2. rewrite !(bpow_opp _) || idtac.
      unfold range. rewrite (bpow_opp radix2 200), (bpow_opp radix2 (-(200))). split; apply Rinv_le; try assumption; try apply bpow_gt_0. }
    assert (R3 : range (-100) 120 h).
    { destruct Hl as (A & B). split; [lra|]. apply Rle_trans with (bpow radix2 20 * bpow radix2 100); [|rewrite <- bpow_plus; right; reflexivity].
      apply Rle_trans with (bpow radix2 20 * l); [lra|]. apply Rmult_le_compat_l; [apply bpow_ge_0|exact B]. }
    apply (range_fair _ _ _ (range_mul _ _ _ _ _ _ R3 R2)); lia. }
  set (mj := m * j) in *. assert (Mj : m <= mj) by (unfold mj; rewrite <- (Rmult_1_r m) at 1; apply Rmult_le_compat_l; lra).
  assert (Mjj : mj <= mj * j) by (rewrite <- (Rmult_1_r mj) at 1; apply Rmult_le_compat_l; lra).
  assert (Mj2 : mj * j <= 1024 * mj) by (rewrite (Rmult_comm 1024); apply Rmult_le_compat_l; lra).
  assert (M3 : mj <= 1024 * m) by (unfold mj; rewrite (Rmult_comm 1024); apply Rmult_le_compat_l; lra).
  assert (Ub : u53 * (mj * j) <= / 1000000 * mj).
  { apply Rle_trans with (u53 * (1024 * mj)); [apply Rmult_le_compat_l; lra|]. replace (u53 * (1024 * mj)) with (1024 * u53 * mj) by ring. apply Rmult_le_compat_r; lra. }
  assert (Rb : Rabs (B2R nn / B2R dd) <= 7 * mj).
  { replace (B2R nn / B2R dd) with (N / D + (B2R nn / B2R dd - N / D)) by ring. eapply Rle_trans; [apply Rabs_triang|]. lra. }
  destruct (div_val nn dd _ _ (conj Fn eq_refl) (conj Fd eq_refl)) as (F & V).
  - lra.
  - eapply Rle_trans; [exact Rb|]. destruct Hmr as (_ & HH). apply Rle_trans with (bpow radix2 13 * bpow radix2 900); [change (bpow radix2 13) with 8192; lra|]. rewrite <- bpow_plus. apply bpow_le. lia.
  - split; [exact F|]. split; [exact K|]. rewrite V. pose proof (rnd_fair m (B2R nn / B2R dd) Hmr) as E2.
    assert (u53 * (Rabs (B2R nn / B2R dd) + m) <= u53 * (8 * (mj * j))) by (apply Rmult_le_compat_l; lra).
    replace (rnd (B2R nn / B2R dd) - N / D) with ((rnd (B2R nn / B2R dd) - B2R nn / B2R dd) + (B2R nn / B2R dd - N / D)) by ring.
    eapply Rle_trans; [apply Rabs_triang|]. assert (0 <= u53 * (mj * j)) by (apply Rmult_le_pos; lra). lra.
Qed.

(** One coordinate of a point projected onto the plane, and of its difference to the voxel. *)
Lemma plane_coordinate (kk nn ww v q : b64) k n l h m j b : range (-100) 100 l -> l <= h <= bpow radix2 20 * l -> l <= b <= bpow radix2 120 ->
  1 <= j <= 1024 -> 0 < m -> m * (l * l) = h ->
  is_finite kk = true -> Rabs k <= 6 * (m * j) -> Rabs (B2R kk - k) <= 2460 * (u53 * (m * j * j)) ->
  ap nn n (l * l + l * l) 11 -> ap ww (B2R q - B2R v) h 2 -> is_finite v = true -> is_finite q = true -> Rabs (B2R v) <= b ->
  let d := b64_sub (b64_add v (b64_sub ww (b64_mul kk nn))) q in
  is_finite d = true /\ Rabs (B2R d) <= bpow radix2 300 /\ Rabs (B2R d - (- (k * n))) <= 5400 * (u53 * (h * j * j)) + 6 * (u53 * b).
Proof.
  intros Hl Hh Hb J Mp ML Fk Kb Ek (Fn & Nb & En) (Fw & Wb & Ew) Fv Fq Vb d. pose proof u53_pos as U. pose proof u53_tiny as Ut.
  pose proof (range_pos _ _ _ Hl) as Lp. assert (Ll : 0 < l * l) by (apply Rmult_lt_0_compat; exact Lp).
  set (ll := l * l) in *.
  assert (R3 : range (-100) 120 h).
  { destruct Hl as (A & B). split; [lra|]. apply Rle_trans with (bpow radix2 20 * bpow radix2 100); [|rewrite <- bpow_plus; right; reflexivity].
    apply Rle_trans with (bpow radix2 20 * l); [lra|]. apply Rmult_le_compat_l; [apply bpow_ge_0|exact B]. }
  assert (Fh : fair h) by (apply (range_fair _ _ _ R3); lia).
  assert (Hp : 0 < h) by lra.
  set (hj := h * j) in *. set (H2 := hj * j).
  assert (J1 : h <= hj) by (unfold hj; rewrite <- (Rmult_1_r h) at 1; apply Rmult_le_compat_l; lra).
  assert (J2 : hj <= H2) by (unfold H2; rewrite <- (Rmult_1_r hj) at 1; apply Rmult_le_compat_l; lra).
  assert (J3 : H2 <= 1024 * hj) by (unfold H2; rewrite (Rmult_comm 1024); apply Rmult_le_compat_l; lra).
  assert (J4 : hj <= 1024 * h) by (unfold hj; rewrite (Rmult_comm 1024); apply Rmult_le_compat_l; lra).
  assert (Uh : u53 * H2 <= / 1000000000 * hj).
  { apply Rle_trans with (u53 * (1024 * hj)); [apply Rmult_le_compat_l; lra|]. replace (u53 * (1024 * hj)) with (1024 * u53 * hj) by ring. apply Rmult_le_compat_r; lra. }
  assert (U1 : u53 * hj <= u53 * H2) by (apply Rmult_le_compat_l; lra). assert (U2 : u53 * h <= u53 * hj) by (apply Rmult_le_compat_l; lra).
  assert (U3 : 0 < u53 * h) by (apply Rmult_lt_0_compat; lra). assert (U4 : 0 < u53 * b) by (apply Rmult_lt_0_compat; lra).
  assert (U5 : u53 * b <= / 1000000 * b) by (apply Rmult_le_compat_r; lra).
  assert (BH : h <= bpow radix2 120) by apply R3.
  assert (HG : bpow radix2 20 * bpow radix2 120 <= bpow radix2 300) by (rewrite <- bpow_plus; apply bpow_le; lia).
  change (bpow radix2 20) with 1048576 in HG. assert (HG' : bpow radix2 300 <= huge) by (apply bpow_le; lia).
  (* the product *)
  assert (P1 : Rabs (k * n) <= 12 * hj).
  { rewrite Rabs_mult. apply Rle_trans with (6 * (m * j) * (ll + ll)); [apply Rmult_le_compat; try apply Rabs_pos; assumption|]. right.
    unfold hj. rewrite <- ML. ring. }
  assert (Nb' : Rabs (B2R nn) <= 21 / 10 * ll).
  { replace (B2R nn) with (n + (B2R nn - n)) by ring. eapply Rle_trans; [apply Rabs_triang|].
    assert (11 * (u53 * (ll + ll)) <= / 1000 * ll) by (replace (11 * (u53 * (ll + ll))) with (22 * u53 * ll) by ring; apply Rmult_le_compat_r; lra). lra. }
  assert (P2 : Rabs (B2R kk * B2R nn - k * n) <= 5298 * (u53 * H2)).
  { replace (B2R kk * B2R nn - k * n) with ((B2R kk - k) * B2R nn + k * (B2R nn - n)) by ring. eapply Rle_trans; [apply Rabs_triang|]. rewrite !Rabs_mult.
    assert (Rabs (B2R kk - k) * Rabs (B2R nn) <= 2460 * (u53 * (m * j * j)) * (21 / 10 * ll)) by (apply Rmult_le_compat; try apply Rabs_pos; assumption).
    assert (Rabs k * Rabs (B2R nn - n) <= 6 * (m * j) * (11 * (u53 * (ll + ll)))) by (apply Rmult_le_compat; try apply Rabs_pos; assumption).
    replace (2460 * (u53 * (m * j * j)) * (21 / 10 * ll)) with (5166 * (u53 * H2)) in * by (unfold H2, hj; rewrite <- ML; field).
    replace (6 * (m * j) * (11 * (u53 * (ll + ll)))) with (132 * (u53 * hj)) in * by (unfold hj; rewrite <- ML; ring). lra. }
  assert (P3 : Rabs (B2R kk * B2R nn) <= 13 * hj).
  { replace (B2R kk * B2R nn) with (k * n + (B2R kk * B2R nn - k * n)) by ring. eapply Rle_trans; [apply Rabs_triang|]. lra. }
  destruct (mul_val kk nn _ _ (conj Fk eq_refl) (conj Fn eq_refl)) as (F1 & V1); [eapply Rle_trans; [exact P3|lra]|].
  pose proof (rnd_fair h (B2R kk * B2R nn) Fh) as E1. rewrite <- V1 in E1.
  assert (E1' : Rabs (B2R (b64_mul kk nn) - B2R kk * B2R nn) <= 14 * (u53 * hj)).
  { eapply Rle_trans; [exact E1|]. replace (14 * (u53 * hj)) with (u53 * (14 * hj)) by ring. apply Rmult_le_compat_l; lra. }
  set (A := B2R (b64_mul kk nn)) in *. apply Rabs_le_inv in E1', P2, P1, Ew, Wb, Vb. clear E1.
  (* the rejection *)
  assert (P4 : Rabs (B2R ww - A) <= 16 * hj) by (apply Rabs_le; lra).
  destruct (sub_val ww (b64_mul kk nn) _ A (conj Fw eq_refl) (conj F1 eq_refl)) as (F2 & V2); [eapply Rle_trans; [exact P4|lra]|].
  pose proof (rnd_fair h (B2R ww - A) Fh) as E2. rewrite <- V2 in E2.
  assert (E2' : Rabs (B2R (b64_sub ww (b64_mul kk nn)) - (B2R ww - A)) <= 17 * (u53 * hj)).
  { eapply Rle_trans; [exact E2|]. replace (17 * (u53 * hj)) with (u53 * (17 * hj)) by ring. apply Rmult_le_compat_l; lra. }
  set (B := B2R (b64_sub ww (b64_mul kk nn))) in *. apply Rabs_le_inv in E2'. clear E2.
  (* the point *)
  assert (P5 : Rabs (B2R v + B) <= b + 17 * hj) by (apply Rabs_le_inv in P4; apply Rabs_le; lra).
  destruct (add_val v (b64_sub ww (b64_mul kk nn)) _ B (conj Fv eq_refl) (conj F2 eq_refl)) as (F3 & V3); [eapply Rle_trans; [exact P5|lra]|].
  pose proof (rnd_fair h (B2R v + B) Fh) as E3. rewrite <- V3 in E3.
  assert (E3' : Rabs (B2R (b64_add v (b64_sub ww (b64_mul kk nn))) - (B2R v + B)) <= 18 * (u53 * hj) + u53 * b).
  { eapply Rle_trans; [exact E3|]. replace (18 * (u53 * hj) + u53 * b) with (u53 * (18 * hj + b)) by ring. apply Rmult_le_compat_l; lra. }
  set (C := B2R (b64_add v (b64_sub ww (b64_mul kk nn)))) in *. apply Rabs_le_inv in E3'. clear E3.
  (* the difference *)
  assert (P6 : Rabs (C - B2R q) <= b + 13 * hj) by (apply Rabs_le; lra).
  destruct (sub_val (b64_add v (b64_sub ww (b64_mul kk nn))) q C _ (conj F3 eq_refl) (conj Fq eq_refl)) as (F4 & V4); [eapply Rle_trans; [exact P6|lra]|].
  pose proof (rnd_fair h (C - B2R q) Fh) as E4. rewrite <- V4 in E4. fold d in F4, V4, E4.
  assert (E4' : Rabs (B2R d - (C - B2R q)) <= 14 * (u53 * hj) + u53 * b).
  { eapply Rle_trans; [exact E4|]. replace (14 * (u53 * hj) + u53 * b) with (u53 * (14 * hj + b)) by ring. apply Rmult_le_compat_l; lra. }
  apply Rabs_le_inv in E4', P6. split; [exact F4|]. split; apply Rabs_le; lra.
Qed.

(** One coordinate of a point of a segment. *)
Lemma segment_coordinate (v w q t : b64) h b : range (-100) 120 h -> 0 < b <= bpow radix2 120 ->
  is_finite v = true -> is_finite w = true -> is_finite q = true -> is_finite t = true ->
  Rabs (B2R v) <= b -> Rabs (B2R w - B2R v) <= h -> Rabs (B2R q - B2R v) <= h -> 0 <= B2R t <= 1 ->
  let d := b64_sub (b64_add v (b64_mul (b64_sub w v) t)) q in
  is_finite d = true /\ Rabs (B2R d) <= bpow radix2 300 /\
  Rabs (B2R d - (B2R v + B2R t * (B2R w - B2R v) - B2R q)) <= 20 * (u53 * h) + 6 * (u53 * b).
Proof.
  intros Hh Hb Fv Fw Fq Ft Vb Wb Qb Tb d. pose proof u53_pos as U. pose proof u53_tiny as Ut. pose proof (range_pos _ _ _ Hh) as Hp.
  assert (Fh : fair h) by (apply (range_fair _ _ _ Hh); lia). destruct Hh as (_ & BH).
  assert (HG : bpow radix2 20 * bpow radix2 120 <= bpow radix2 300) by (rewrite <- bpow_plus; apply bpow_le; lia).
  change (bpow radix2 20) with 1048576 in HG. assert (HG' : bpow radix2 300 <= huge) by (apply bpow_le; lia).
  assert (U3 : 0 < u53 * h <= / 1000000 * h) by (split; [apply Rmult_lt_0_compat; lra|apply Rmult_le_compat_r; lra]).
  assert (U4 : 0 < u53 * b <= / 1000000 * b) by (split; [apply Rmult_lt_0_compat; lra|apply Rmult_le_compat_r; lra]).
  destruct (ap_diff w v h Fh Fw Fv Wb) as (F0 & _ & E0). set (D := B2R (b64_sub w v)) in *.
  assert (P0 : Rabs D <= 11 / 10 * h) by (apply Rabs_le_inv in E0, Wb; apply Rabs_le; lra).
  assert (TS : forall x c, Rabs x <= c -> Rabs (x * B2R t) <= c).
  { intros x c Hx. rewrite Rabs_mult, (Rabs_pos_eq (B2R t)) by lra. replace c with (c * 1) by ring. apply Rmult_le_compat; try apply Rabs_pos; lra. }
  pose proof (TS _ _ P0) as P1. pose proof (TS _ _ E0) as E0'. pose proof (TS _ _ Wb) as W1.
  replace ((D - (B2R w - B2R v)) * B2R t) with (D * B2R t - (B2R w - B2R v) * B2R t) in E0' by ring.
  destruct (mul_val (b64_sub w v) t D _ (conj F0 eq_refl) (conj Ft eq_refl)) as (F1 & V1); [eapply Rle_trans; [exact P1|lra]|].
  pose proof (rnd_fair h (D * B2R t) Fh) as E1. rewrite <- V1 in E1.
  assert (E1' : Rabs (B2R (b64_mul (b64_sub w v) t) - D * B2R t) <= 3 * (u53 * h)).
  { eapply Rle_trans; [exact E1|]. replace (3 * (u53 * h)) with (u53 * (3 * h)) by ring. apply Rmult_le_compat_l; lra. }
  set (A := B2R (b64_mul (b64_sub w v) t)) in *. set (Y := D * B2R t) in *. clear E1.
  replace ((B2R w - B2R v) * B2R t) with (B2R t * (B2R w - B2R v)) in * by ring. set (X := B2R t * (B2R w - B2R v)) in *.
  apply Rabs_le_inv in E1', E0', W1, P1, Vb, Qb.
  assert (P5 : Rabs (B2R v + A) <= b + 2 * h) by (apply Rabs_le; lra).
  destruct (add_val v (b64_mul (b64_sub w v) t) _ A (conj Fv eq_refl) (conj F1 eq_refl)) as (F3 & V3); [eapply Rle_trans; [exact P5|lra]|].
  pose proof (rnd_fair h (B2R v + A) Fh) as E3. rewrite <- V3 in E3.
  assert (E3' : Rabs (B2R (b64_add v (b64_mul (b64_sub w v) t)) - (B2R v + A)) <= 3 * (u53 * h) + u53 * b).
  { eapply Rle_trans; [exact E3|]. replace (3 * (u53 * h) + u53 * b) with (u53 * (3 * h + b)) by ring. apply Rmult_le_compat_l; lra. }
  set (C := B2R (b64_add v (b64_mul (b64_sub w v) t))) in *. apply Rabs_le_inv in E3'. clear E3.
  assert (P6 : Rabs (C - B2R q) <= b + 3 * h) by (apply Rabs_le; lra).
  destruct (sub_val (b64_add v (b64_mul (b64_sub w v) t)) q C _ (conj F3 eq_refl) (conj Fq eq_refl)) as (F4 & V4); [eapply Rle_trans; [exact P6|lra]|].
  pose proof (rnd_fair h (C - B2R q) Fh) as E4. rewrite <- V4 in E4. fold d in F4, V4, E4.
  assert (E4' : Rabs (B2R d - (C - B2R q)) <= 4 * (u53 * h) + u53 * b).
  { eapply Rle_trans; [exact E4|]. replace (4 * (u53 * h) + u53 * b) with (u53 * (4 * h + b)) by ring. apply Rmult_le_compat_l; lra. }
  apply Rabs_le_inv in E4', P6. split; [exact F4|]. split; apply Rabs_le; lra.
Qed.

(** ** A voxel that passes the test *)

Lemma clamp_cases fl tri (x : b64) : let t := m_clamp (double_mesh fl tri) x in
  t = B754_nan \/ (is_finite t = true /\ 0 <= B2R t <= 1).
Proof.
  cbn zeta. change (m_clamp (double_mesh fl tri) x) with
    (if b64_ltb x (B754_zero false) then B754_zero false else if b64_ltb (b64_lit 1 0) x then b64_lit 1 0 else x).
  destruct (lit_val 1 0 ltac:(reflexivity) ltac:(lia)) as (F1 & V1). cbn [bpow] in V1. rewrite Rmult_1_r in V1.
  assert (Z0 : is_finite (B754_zero false : b64) = true /\ 0 <= B2R (B754_zero false : b64) <= 1) by (split; [reflexivity|cbn [B2R]; lra]).
  destruct (is_finite x) eqn:Fx.
  - right. unfold b64_ltb. rewrite (Bltb_correct 53 1024 x (B754_zero false) Fx eq_refl), (Bltb_correct 53 1024 (b64_lit 1 0) x F1 Fx), V1. cbn [B2R].
    destruct (Rlt_bool_spec (B2R x) 0); [exact Z0|]. destruct (Rlt_bool_spec 1 (B2R x)); [split; [exact F1|lra]|split; [exact Fx|lra]].
  - destruct x as [s|[|]| |s mm e H]; try discriminate Fx.
    + right. exact Z0.
    + right. replace (b64_ltb (B754_infinity false) (B754_zero false)) with false by reflexivity.
      replace (b64_ltb (b64_lit 1 0) (B754_infinity false)) with true by (destruct (b64_lit 1 0) as [s|s| |[|] mm e H]; try discriminate F1; reflexivity).
      split; [exact F1|lra].
    + left. replace (b64_ltb B754_nan (B754_zero false)) with false by reflexivity.
      replace (b64_ltb (b64_lit 1 0) B754_nan) with false by (destruct (b64_lit 1 0) as [s|s| |[|] mm e H]; reflexivity). reflexivity.
Qed.

Lemma nan_misses (a p q y z r : b64) : b64_leb (b64_add (b64_mul (b64_sub (b64_add a (b64_mul p B754_nan)) q) y) z) r = false.
Proof.
  replace (b64_mul p B754_nan) with (B754_nan : b64) by (destruct p as [| | |[|]]; reflexivity).
  replace (b64_add a B754_nan) with (B754_nan : b64) by (destruct a as [| | |[|]]; reflexivity).
  replace (b64_sub B754_nan q) with (B754_nan : b64) by (destruct q as [| | |[|]]; reflexivity).
  replace (b64_mul B754_nan y) with (B754_nan : b64) by (destruct y as [| | |[|]]; reflexivity).
  replace (b64_add B754_nan z) with (B754_nan : b64) by (destruct z as [| | |[|]]; reflexivity).
  destruct r as [| | |[|]]; reflexivity.
Qed.

Lemma dist_from_difference (q f d : pt) e : Rabs (px d - (px f - px q)) <= e -> Rabs (py d - (py f - py q)) <= e -> Rabs (pz d - (pz f - pz q)) <= e ->
  RayGeoSpec.dist q f <= sqrt (dot d d) + 4 * e.
Proof.
  intros X Y Z. assert (E : 0 <= e) by (eapply Rle_trans; [apply Rabs_pos|exact X]).
  set (p := (px q + px d, py q + py d, pz q + pz d) : pt).
  replace (sqrt (dot d d)) with (RayGeoSpec.dist q p).
  - apply PoseProofs.dist_close.
    + split; [|split]; rewrite Rminus_diag_eq, Rabs_R0 by reflexivity; exact E.
    + assert (S : forall x y w, Rabs (x - (y - w)) <= e -> Rabs (y - (w + x)) <= e) by (intros x y w H; rewrite Rabs_minus_sym in H; replace (y - (w + x)) with (y - w - x) by ring; exact H).
      split; [|split]; apply S; assumption.
  - unfold RayGeoSpec.dist. apply f_equal. unfold dot, p, px, py, pz, RayGeoSpec.px, RayGeoSpec.py, RayGeoSpec.pz. cbn [fst snd]. ring.
Qed.

(** The point taken on an edge. *)
Lemma segment_near fl tri (v w q : b64 * b64 * b64) res h b : let M := double_mesh fl tri in
  range (-100) 120 h -> 0 < b <= bpow radix2 120 -> finite3 v -> finite3 w -> finite3 q ->
  is_finite res = true -> bpow radix2 (-100) <= B2R res <= bpow radix2 100 ->
  within_each b (reals3 v) (0, 0, 0) -> within_each h (reals3 w) (reals3 v) -> within_each h (reals3 q) (reals3 v) ->
  q_leb (m_query M) (vsq M (vsub M (closest_on_segment M v w q) q)) (m_radius_sq M res) = true ->
  exists t, 0 <= t <= 1 /\
    RayGeoSpec.dist (reals3 q) (blend (reals3 v) (reals3 w) (reals3 v) t 0) <=
      sqrt 3 / 2 * B2R res + 100 * (u53 * B2R res) + 4 * (20 * (u53 * h) + 6 * (u53 * b)).
Proof.
  intros M Hh Hb (V1 & V2 & V3) (W1 & W2 & W3) (Q1 & Q2 & Q3) Fr Hr (B1 & B2 & B3) (D1 & D2 & D3) (C1 & C2 & C3) H.
  unfold closest_on_segment in H.
  destruct (clamp_cases fl tri (q_div (m_query M) (vdot M (vsub M w v) (vsub M q v)) (vsq M (vsub M w v)))) as [E|(Ft & Tb)].
  { exfalso. change (m_clamp (double_mesh fl tri)) with (m_clamp M) in E. cbv zeta in H. rewrite E in H.
    pose proof (eq_trans (eq_sym H) (nan_misses _ _ _ _ _ _)) as X. discriminate X. }
  change (m_clamp (double_mesh fl tri)) with (m_clamp M) in Ft, Tb.
  set (t := m_clamp M (q_div (m_query M) (vdot M (vsub M w v) (vsub M q v)) (vsq M (vsub M w v)))) in *. clearbody t.
  exists (B2R t). split; [exact Tb|].
  destruct v as ((vx, vy), vz), w as ((wx, wy), wz), q as ((qx', qy'), qz').
  unfold reals3, px, py, pz in *. cbn [fst snd] in *. rewrite Rminus_0_r in B1, B2, B3.
  destruct (segment_coordinate vx wx qx' t h b Hh Hb V1 W1 Q1 Ft B1 D1 C1 Tb) as (X1 & X2 & X3).
  destruct (segment_coordinate vy wy qy' t h b Hh Hb V2 W2 Q2 Ft B2 D2 C2 Tb) as (Y1 & Y2 & Y3).
  destruct (segment_coordinate vz wz qz' t h b Hh Hb V3 W3 Q3 Ft B3 D3 C3 Tb) as (Z1 & Z2 & Z3).
  set (dx := b64_sub (b64_add vx (b64_mul (b64_sub wx vx) t)) qx') in *.
  set (dy := b64_sub (b64_add vy (b64_mul (b64_sub wy vy) t)) qy') in *.
  set (dz := b64_sub (b64_add vz (b64_mul (b64_sub wz vz) t)) qz') in *.
  pose proof (hit_length fl tri res (dx, dy, dz) Fr Hr (conj X1 (conj Y1 Z1)) X2 Y2 Z2 H) as HL.
  eapply Rle_trans.
  - apply (dist_from_difference _ _ (reals3 (dx, dy, dz)) (20 * (u53 * h) + 6 * (u53 * b))).
    + unfold blend, reals3, px, py, pz. cbn [fst snd]. replace (B2R vx + B2R t * (B2R wx - B2R vx) + 0 * (B2R vx - B2R vx)) with (B2R vx + B2R t * (B2R wx - B2R vx)) by ring. exact X3.
    + unfold blend, reals3, px, py, pz. cbn [fst snd]. replace (B2R vy + B2R t * (B2R wy - B2R vy) + 0 * (B2R vy - B2R vy)) with (B2R vy + B2R t * (B2R wy - B2R vy)) by ring. exact Y3.
    + unfold blend, reals3, px, py, pz. cbn [fst snd]. replace (B2R vz + B2R t * (B2R wz - B2R vz) + 0 * (B2R vz - B2R vz)) with (B2R vz + B2R t * (B2R wz - B2R vz)) by ring. exact Z3.
  - lra.
Qed.

Lemma within_each_sym d p q : within_each d p q -> within_each d q p.
Proof. intros (X & Y & Z). split; [|split]; rewrite Rabs_minus_sym; assumption. Qed.

Lemma within_each_weaken d d' p q : d <= d' -> within_each d p q -> within_each d' p q.
Proof. intros H (X & Y & Z). split; [|split]; eapply Rle_trans; eassumption. Qed.

Lemma triangle_edge a b c t : 0 <= t <= 1 ->
  in_triangle a b c (blend a b a t 0) /\ in_triangle a b c (blend b c b t 0) /\ in_triangle a b c (blend c a c t 0).
Proof.
  intros Ht. split; [|split].
  - exists t, 0. split; [lra|]. split; [lra|]. split; [lra|]. unfold blend. apply f_equal2; [apply f_equal2|]; ring.
  - exists (1 - t), t. split; [lra|]. split; [lra|]. split; [lra|]. unfold blend. apply f_equal2; [apply f_equal2|]; ring.
  - exists 0, (1 - t). split; [lra|]. split; [lra|]. split; [lra|]. unfold blend. apply f_equal2; [apply f_equal2|]; ring.
Qed.

Lemma size_fair l h : range (-100) 100 l -> range (-100) 120 h ->
  fair l /\ fair h /\ fair (l * l) /\ fair (l * l + l * l) /\ fair (l * h) /\ fair (l * h + l * h) /\
  (let n := l * l + l * l in fair (n * h) /\ fair (n * h + n * h) /\ fair (n * h + (n * h + n * h)) /\
   fair (n * n) /\ fair (n * n + n * n) /\ fair (n * n + (n * n + n * n))) /\
  (let n := l * l + l * l in let k := l * h + l * h in fair (n * k) /\ fair (n * k + n * k) /\ fair (n * k + (n * k + n * k))).
Proof.
  intros Hl Hh. pose proof (range_mul _ _ _ _ _ _ Hl Hl) as R1. pose proof (range_twice _ _ _ R1) as R2.
  pose proof (range_mul _ _ _ _ _ _ Hl Hh) as R3. pose proof (range_twice _ _ _ R3) as R4.
  pose proof (range_mul _ _ _ _ _ _ R2 Hh) as R5. pose proof (range_mul _ _ _ _ _ _ R2 R2) as R6. pose proof (range_mul _ _ _ _ _ _ R2 R4) as R7.
  cbn zeta. repeat match goal with |- _ /\ _ => split end;
    first [apply (range_fair _ _ _ Hl); lia|apply (range_fair _ _ _ Hh); lia|apply (range_fair _ _ _ R1); lia|apply (range_fair _ _ _ R2); lia
      |apply (range_fair _ _ _ R3); lia|apply (range_fair _ _ _ R4); lia|apply (range_fair _ _ _ R5); lia|apply (range_fair _ _ _ R6); lia
      |apply (range_fair _ _ _ R7); lia
      |apply (range_fair _ _ _ (range_twice _ _ _ R5)); lia|apply (range_fair _ _ _ (range_thrice _ _ _ R5)); lia
      |apply (range_fair _ _ _ (range_twice _ _ _ R6)); lia|apply (range_fair _ _ _ (range_thrice _ _ _ R6)); lia
      |apply (range_fair _ _ _ (range_twice _ _ _ R7)); lia|apply (range_fair _ _ _ (range_thrice _ _ _ R7)); lia].
Qed.

(** The side test is that of the exact points up to rounding. *)
Lemma same_side_value fl tri (a b p q : b64 * b64 * b64) l h : let M := double_mesh fl tri in
  range (-100) 100 l -> range (-100) 120 h -> finite3 a -> finite3 b -> finite3 p -> finite3 q ->
  within_each l (reals3 b) (reals3 a) -> within_each l (reals3 p) (reals3 a) -> within_each h (reals3 q) (reals3 a) ->
  let S := side (reals3 a) (reals3 b) (reals3 p) (reals3 q) in
  (same_side M a b p q = true -> - (384 * (u53 * (l * l * (l * h)))) <= S) /\
  (384 * (u53 * (l * l * (l * h))) <= S -> same_side M a b p q = true).
Proof.
  intros M Hl Hh Fa Fb Fp Fq (B1 & B2 & B3) (P1 & P2 & P3) (Q1 & Q2 & Q3) S. subst M.
  destruct (size_fair l h Hl Hh) as (fl1 & fh1 & fll & fll2 & flh & flh2 & _ & (fn & fn2 & fn3)).
  pose proof (range_pos _ _ _ Hl) as Lp. pose proof (range_pos _ _ _ Hh) as Hp.
  assert (Ll : 0 < l * l) by (apply Rmult_lt_0_compat; exact Lp). assert (Lh : 0 < l * h) by (apply Rmult_lt_0_compat; assumption).
  pose proof (ap3_diff fl tri b a l fl1 Fb Fa B1 B2 B3) as AB. pose proof (ap3_diff fl tri p a l fl1 Fp Fa P1 P2 P3) as AP.
  pose proof (ap3_diff fl tri q a h fh1 Fq Fa Q1 Q2 Q3) as AQ.
  pose proof (ap3_cross fl tri _ _ _ _ l l 2 2 fll fll2 Lp Lp ltac:(lra) ltac:(lra) AB AP) as X1.
  pose proof (ap3_cross fl tri _ _ _ _ l h 2 2 flh flh2 Lp Hp ltac:(lra) ltac:(lra) AB AQ) as X2.
  pose proof (ap_dot fl tri _ _ _ _ (l * l + l * l) (l * h + l * h) (2 + 2 + 7) (2 + 2 + 7) fn fn2 fn3 ltac:(lra) ltac:(lra) ltac:(lra) ltac:(lra) X1 X2) as (F & _ & E).
  fold (side (reals3 a) (reals3 b) (reals3 p) (reals3 q)) in E. fold S in E. apply Rabs_le_inv in E.
  set (M := double_mesh fl tri) in *. set (w := vdot M (vcross M (vsub M b a) (vsub M p a)) (vcross M (vsub M b a) (vsub M q a))) in *.
  replace (same_side M a b p q) with (Rle_bool 0 (B2R (w : b64))) by (symmetry; exact (Bleb_correct 53 1024 (B754_zero false) w eq_refl F)).
  clearbody w S. split.
  - intros H. pose proof (Rle_bool_spec 0 (B2R (w : b64))) as Sp. rewrite H in Sp. inversion Sp as [Hle|]. lra.
  - intros H. apply Rle_bool_true. lra.
Qed.

Lemma reject_difference fl tri (n w v q : b64 * b64 * b64) : let M := double_mesh fl tri in
  let k := b64_div (vdot M n w) (vdot M n n) in let f (p : b64 * b64 * b64 -> b64) := b64_sub (b64_add (p v) (b64_sub (p w) (b64_mul k (p n)))) (p q) in
  vsub M (vadd M v (m_reject M n w)) q = (f (fun p => fst (fst p)), f (fun p => snd (fst p)), f snd).
Proof. reflexivity. Qed.

(** The difference between a point and its projection onto the plane. *)
Lemma plane_difference fl tri (v1 v2 v3 q : b64 * b64 * b64) l h b v : let M := double_mesh fl tri in
  range (-100) 100 l -> l <= h <= bpow radix2 20 * l -> l <= b <= bpow radix2 120 -> / 1024 <= v <= 1 ->
  finite3 v1 -> finite3 v2 -> finite3 v3 -> finite3 q ->
  thick l v (reals3 v1) (reals3 v2) (reals3 v3) -> within_each b (reals3 v1) (0, 0, 0) -> within_each h (reals3 q) (reals3 v1) ->
  let n := rcross (minus (reals3 v2) (reals3 v1)) (minus (reals3 v3) (reals3 v1)) in
  let k := dot n (minus (reals3 q) (reals3 v1)) / dot n n in
  let e := 5400 * (u53 * (h * / v * / v)) + 6 * (u53 * b) in
  exists d : b64 * b64 * b64,
    vsub M (vadd M v1 (m_reject M (vcross M (vsub M v2 v1) (vsub M v3 v1)) (vsub M q v1))) q = d /\ finite3 d /\
    Rabs (px (reals3 d)) <= bpow radix2 300 /\ Rabs (py (reals3 d)) <= bpow radix2 300 /\ Rabs (pz (reals3 d)) <= bpow radix2 300 /\
    Rabs (px (reals3 d) - - (k * px n)) <= e /\ Rabs (py (reals3 d) - - (k * py n)) <= e /\ Rabs (pz (reals3 d) - - (k * pz n)) <= e.
Proof.
  intros M Hl Hh Hb Hv F1 F2 F3 Fq (T1 & T2 & T3 & T4) B1 Q1 n k e. subst M. pose proof u53_pos as U.
  assert (Rh : range (-100) 120 h).
  { destruct Hl as (A & B). split; [lra|]. apply Rle_trans with (bpow radix2 20 * bpow radix2 100); [|rewrite <- bpow_plus; right; reflexivity].
    apply Rle_trans with (bpow radix2 20 * l); [lra|]. apply Rmult_le_compat_l; [apply bpow_ge_0|exact B]. }
  destruct (size_fair l h Hl Rh) as (fl1 & fh1 & fll & fll2 & flh & flh2 & (gn & gn2 & gn3 & gnn & gnn2 & gnn3) & _).
  pose proof (range_pos _ _ _ Hl) as Lp. pose proof (range_pos _ _ _ Rh) as Hp.
  assert (Ll : 0 < l * l) by (apply Rmult_lt_0_compat; exact Lp).
  unfold e. set (j := / v) in *. assert (Hj : j * v = 1) by (unfold j; field; lra).
  set (a := reals3 v1) in *. set (bb := reals3 v2) in *. set (c := reals3 v3) in *. set (qq := reals3 q) in *.
  cbv zeta in T4. fold n in T4. set (D := dot n n) in *.
  rewrite (reject_difference fl tri). cbv zeta beta.
  destruct T1 as (T11 & T12 & T13). destruct (within_each_sym _ _ _ T3) as (T31 & T32 & T33). destruct Q1 as (Q11 & Q12 & Q13). destruct B1 as (B11 & B12 & B13).
  pose proof (ap3_diff fl tri v2 v1 l fl1 F2 F1 T11 T12 T13) as A2. pose proof (ap3_diff fl tri v3 v1 l fl1 F3 F1 T31 T32 T33) as A3.
  pose proof (ap3_diff fl tri q v1 h fh1 Fq F1 Q11 Q12 Q13) as AW.
  pose proof (ap3_cross fl tri _ _ _ _ l l 2 2 fll fll2 Lp Lp ltac:(lra) ltac:(lra) A2 A3) as AN.
  fold a bb c qq in A2, A3, AW, AN. fold n in AN.
  pose proof (ap_dot fl tri _ _ _ _ (l * l + l * l) h (2 + 2 + 7) 2 gn gn2 gn3 ltac:(lra) Hp ltac:(lra) ltac:(lra) AN AW) as AK.
  pose proof (ap_dot fl tri _ _ _ _ (l * l + l * l) (l * l + l * l) (2 + 2 + 7) (2 + 2 + 7) gnn gnn2 gnn3 ltac:(lra) ltac:(lra) ltac:(lra) ltac:(lra) AN AN) as AD.
  replace (2 + 2 + 7 + 2 + 10) with 23 in AK by ring. replace (2 + 2 + 7 + (2 + 2 + 7) + 10) with 32 in AD by ring. replace (2 + 2 + 7) with 11 in AN by ring.
  fold D in AD.
  destruct (plane_quotient _ _ _ _ l h v j Hl Hh Hv Hj T4 AK AD) as (Mp & J1 & Fk & Kb & Ek). cbv zeta in Mp, Kb, Ek.
  set (m := h * / (l * l)) in *. assert (ML : m * (l * l) = h) by (unfold m; field; lra).
  set (kk := b64_div (vdot (double_mesh fl tri) (vcross (double_mesh fl tri) (vsub (double_mesh fl tri) v2 v1) (vsub (double_mesh fl tri) v3 v1)) (vsub (double_mesh fl tri) q v1))
     (vdot (double_mesh fl tri) (vcross (double_mesh fl tri) (vsub (double_mesh fl tri) v2 v1) (vsub (double_mesh fl tri) v3 v1)) (vcross (double_mesh fl tri) (vsub (double_mesh fl tri) v2 v1) (vsub (double_mesh fl tri) v3 v1)))) in *.
  fold k in Kb, Ek.
  destruct AN as (N1 & N2 & N3), AW as (W1 & W2 & W3).
  destruct F1 as (F11 & F12 & F13), Fq as (Fq1 & Fq2 & Fq3).
  assert (Z0 : forall x y, Rabs (x - y) <= b -> y = 0 -> Rabs x <= b) by (intros x y Hx ->; now rewrite Rminus_0_r in Hx).
  pose proof (Z0 _ _ B11 eq_refl) as B1'. pose proof (Z0 _ _ B12 eq_refl) as B2'. pose proof (Z0 _ _ B13 eq_refl) as B3'.
  destruct (plane_coordinate kk _ _ (fst (fst v1)) (fst (fst q)) k (px n) l h m j b Hl Hh Hb J1 Mp ML Fk Kb Ek N1 W1 F11 Fq1 B1') as (X1 & X2 & X3).
  destruct (plane_coordinate kk _ _ (snd (fst v1)) (snd (fst q)) k (py n) l h m j b Hl Hh Hb J1 Mp ML Fk Kb Ek N2 W2 F12 Fq2 B2') as (Y1 & Y2 & Y3).
  destruct (plane_coordinate kk _ _ (snd v1) (snd q) k (pz n) l h m j b Hl Hh Hb J1 Mp ML Fk Kb Ek N3 W3 F13 Fq3 B3') as (Z1 & Z2 & Z3).
  eexists. split; [reflexivity|]. split; [exact (conj X1 (conj Y1 Z1))|]. split; [exact X2|]. split; [exact Y2|]. split; [exact Z2|]. split; [exact X3|]. split; [exact Y3|exact Z3].
Qed.

(** The point taken on the plane. *)
Lemma plane_near fl tri (v1 v2 v3 q : b64 * b64 * b64) res l h b v : let M := double_mesh fl tri in
  range (-100) 100 l -> l <= h <= bpow radix2 20 * l -> l <= b <= bpow radix2 120 -> / 1024 <= v <= 1 ->
  finite3 v1 -> finite3 v2 -> finite3 v3 -> finite3 q -> is_finite res = true -> bpow radix2 (-100) <= B2R res <= bpow radix2 100 ->
  thick l v (reals3 v1) (reals3 v2) (reals3 v3) -> within_each b (reals3 v1) (0, 0, 0) ->
  within_each h (reals3 q) (reals3 v1) -> within_each h (reals3 q) (reals3 v2) -> within_each h (reals3 q) (reals3 v3) ->
  projects_inside M v1 v2 v3 q = true ->
  q_leb (m_query M) (vsq M (vsub M (vadd M v1 (m_reject M (vcross M (vsub M v2 v1) (vsub M v3 v1)) (vsub M q v1))) q)) (m_radius_sq M res) = true ->
  exists p, in_triangle (reals3 v1) (reals3 v2) (reals3 v3) p /\
    RayGeoSpec.dist (reals3 q) p <=
      sqrt 3 / 2 * B2R res + 100 * (u53 * B2R res) + 4 * (5400 * (u53 * (h * / v * / v)) + 6 * (u53 * b)) + 6200 * (u53 * (h * / v)).
Proof.
  intros M Hl Hh Hb Hv F1 F2 F3 Fq Fr Hr T B1 Q1 Q2 Q3 HP HH. subst M.
  pose proof u53_pos as U. pose proof u53_tiny as Ut.
  assert (Rh : range (-100) 120 h).
  { destruct Hl as (A & B). split; [lra|]. apply Rle_trans with (bpow radix2 20 * bpow radix2 100); [|rewrite <- bpow_plus; right; reflexivity].
    apply Rle_trans with (bpow radix2 20 * l); [lra|]. apply Rmult_le_compat_l; [apply bpow_ge_0|exact B]. }
  destruct (plane_difference fl tri v1 v2 v3 q l h b v Hl Hh Hb Hv F1 F2 F3 Fq T B1 Q1) as (d & Ed & Fd & D1 & D2 & D3 & X3 & Y3 & Z3).
  rewrite Ed in HH. clear Ed. pose proof (hit_length fl tri res d Fr Hr Fd D1 D2 D3 HH) as HL. clear HH.
  destruct T as (T1 & T2 & T3 & T4).
  pose proof (range_pos _ _ _ Hl) as Lp. pose proof (range_pos _ _ _ Rh) as Hp.
  assert (Ll : 0 < l * l) by (apply Rmult_lt_0_compat; exact Lp).
  set (j := / v) in *. assert (Hj : j * v = 1) by (unfold j; field; lra).
  assert (J1 : 1 <= j <= 1024).
  { unfold j. split; [rewrite <- Rinv_1; apply Rinv_le; lra|]. replace 1024 with (/ / 1024) by field. apply Rinv_le; lra. }
  unfold projects_inside in HP. apply andb_prop in HP as (HP & S3). apply andb_prop in HP as (S1 & S2).
  pose proof (proj1 (same_side_value fl tri v1 v2 v3 q l h Hl Rh F1 F2 F3 Fq T1 (within_each_sym _ _ _ T3) Q1) S1) as L1.
  pose proof (proj1 (same_side_value fl tri v2 v3 v1 q l h Hl Rh F2 F3 F1 Fq T2 (within_each_sym _ _ _ T1) Q2) S2) as L2.
  pose proof (proj1 (same_side_value fl tri v3 v1 v2 q l h Hl Rh F3 F1 F2 Fq T3 (within_each_sym _ _ _ T2) Q3) S3) as L3.
  clear S1 S2 S3.
  set (a := reals3 v1) in *. set (bb := reals3 v2) in *. set (c := reals3 v3) in *. set (qq := reals3 q) in *.
  set (n := rcross (minus bb a) (minus c a)) in *. cbv zeta in T4. set (D := dot n n) in *. set (k := dot n (minus qq a) / D) in *.
  set (f := (px qq - k * px n, py qq - k * py n, pz qq - k * pz n) : pt).
  assert (DF : RayGeoSpec.dist qq f <= sqrt (dot (reals3 d) (reals3 d)) + 4 * (5400 * (u53 * (h * j * j)) + 6 * (u53 * b))).
  { apply dist_from_difference.
    - replace (px f - px qq) with (- (k * px n)) by (unfold f, px; cbn [fst snd]; ring). exact X3.
    - replace (py f - py qq) with (- (k * py n)) by (unfold f, py; cbn [fst snd]; ring). exact Y3.
    - replace (pz f - pz qq) with (- (k * pz n)) by (unfold f, pz; cbn [fst snd]; ring). exact Z3. }
  set (e := 384 * u53 * (h * / l) * j).
  assert (HL1 : h * / l <= 1048576).
  { replace 1048576 with (bpow radix2 20 * l * / l) by (change (bpow radix2 20) with 1048576; field; lra).
    apply Rmult_le_compat_r; [left; apply Rinv_0_lt_compat; exact Lp|lra]. }
  assert (HL0 : 0 <= h * / l) by (apply Rmult_le_pos; [lra|left; apply Rinv_0_lt_compat; exact Lp]).
  assert (E1 : 0 <= e <= / 4).
  { assert (0 <= 384 * u53 * (h * / l)) by (apply Rmult_le_pos; [lra|exact HL0]). unfold e. split; [apply Rmult_le_pos; lra|].
    apply Rle_trans with (384 * u53 * 1048576 * 1024); [|lra].
    apply Rmult_le_compat; try lra. apply Rmult_le_compat_l; lra. }
  assert (El : e * l = 384 * (u53 * (h * j))) by (unfold e; field; lra).
  assert (ED : 384 * (u53 * (l * l * (l * h))) <= e * D).
  { apply Rle_trans with (e * (v * (l * l * (l * l)))); [|apply Rmult_le_compat_l; lra].
    right. replace (e * (v * (l * l * (l * l)))) with (e * l * v * (l * l * l)) by ring. rewrite El.
    replace (384 * (u53 * (h * j)) * v * (l * l * l)) with (384 * (u53 * h) * (j * v) * (l * l * l)) by ring. rewrite Hj. ring. }
  assert (Dp : 0 < D) by (assert (0 < v * (l * l * (l * l))) by (apply Rmult_lt_0_compat; [lra|apply Rmult_lt_0_compat; exact Ll]); lra).
  assert (L1' : - (e * D) <= side a bb c qq) by lra. assert (L2' : - (e * D) <= side bb c a qq) by lra. assert (L3' : - (e * D) <= side c a bb qq) by lra.
  destruct (foot_near a bb c qq l e Dp E1 T1 (within_each_sym _ _ _ T3) L1' L2' L3') as (p & Ip & Cp).
  exists p. split; [exact Ip|].
  pose proof (PoseProofs.dist_close (4 * (e * l)) qq qq f p) as DC.
  assert (E0 : 0 <= 4 * (e * l)) by (assert (0 <= e * l) by (apply Rmult_le_pos; lra); lra).
  assert (DC' : RayGeoSpec.dist qq p <= RayGeoSpec.dist qq f + 4 * (4 * (e * l))).
  { apply DC; [split; [|split]; rewrite Rminus_diag_eq, Rabs_R0 by reflexivity; exact E0|exact Cp]. }
  rewrite El in DC'. assert (0 <= u53 * (h * j)) by (repeat apply Rmult_le_pos; lra).
  clear - DC' DF HL H. lra.
Qed.

(** A point clearly above the triangle and clearly near it passes the test. *)
Lemma plane_hit fl tri (v1 v2 v3 q : b64 * b64 * b64) res l h b v s t k : let M := double_mesh fl tri in
  range (-100) 100 l -> l <= h <= bpow radix2 20 * l -> l <= b <= bpow radix2 120 -> / 1024 <= v <= 1 ->
  finite3 v1 -> finite3 v2 -> finite3 v3 -> finite3 q -> is_finite res = true -> bpow radix2 (-100) <= B2R res <= bpow radix2 100 ->
  thick l v (reals3 v1) (reals3 v2) (reals3 v3) -> within_each b (reals3 v1) (0, 0, 0) ->
  within_each h (reals3 q) (reals3 v1) -> within_each h (reals3 q) (reals3 v2) -> within_each h (reals3 q) (reals3 v3) ->
  let a := reals3 v1 in let bb := reals3 v2 in let c := reals3 v3 in
  let n := rcross (minus bb a) (minus c a) in let p := blend a bb c s t in
  let e := 512 * u53 * (h / (l * v)) in
  e <= s -> e <= t -> s + t <= 1 - e ->
  reals3 q = (px p + k * px n, py p + k * py n, pz p + k * pz n) ->
  RayGeoSpec.dist (reals3 q) p + 32768 * (u53 * (h / (v * v) + b + B2R res)) <= sqrt 3 / 2 * B2R res ->
  projects_inside M v1 v2 v3 q = true /\
  q_leb (m_query M) (vsq M (vsub M (vadd M v1 (m_reject M (vcross M (vsub M v2 v1) (vsub M v3 v1)) (vsub M q v1))) q)) (m_radius_sq M res) = true.
Proof.
  intros M Hl Hh Hb Hv F1 F2 F3 Fq Fr Hr T B1 Q1 Q2 Q3 a bb c n p e Es Et Est Eq Dist. subst M.
  pose proof u53_pos as U.
  assert (Rh : range (-100) 120 h).
  { destruct Hl as (A & B). split; [lra|]. apply Rle_trans with (bpow radix2 20 * bpow radix2 100); [|rewrite <- bpow_plus; right; reflexivity].
    apply Rle_trans with (bpow radix2 20 * l); [lra|]. apply Rmult_le_compat_l; [apply bpow_ge_0|exact B]. }
  destruct (plane_difference fl tri v1 v2 v3 q l h b v Hl Hh Hb Hv F1 F2 F3 Fq T B1 Q1) as (d & Ed & Fd & D1 & D2 & D3 & X3 & Y3 & Z3).
  rewrite Ed. clear Ed. destruct T as (T1 & T2 & T3 & T4).
  pose proof (range_pos _ _ _ Hl) as Lp. pose proof (range_pos _ _ _ Rh) as Hp.
  assert (Ll : 0 < l * l) by (apply Rmult_lt_0_compat; exact Lp).
  pose proof (proj2 (same_side_value fl tri v1 v2 v3 q l h Hl Rh F1 F2 F3 Fq T1 (within_each_sym _ _ _ T3) Q1)) as L1.
  pose proof (proj2 (same_side_value fl tri v2 v3 v1 q l h Hl Rh F2 F3 F1 Fq T2 (within_each_sym _ _ _ T1) Q2)) as L2.
  pose proof (proj2 (same_side_value fl tri v3 v1 v2 q l h Hl Rh F3 F1 F2 Fq T3 (within_each_sym _ _ _ T2) Q3)) as L3.
  fold a bb c in L1, L2, L3, X3, Y3, Z3, T4. fold n in X3, Y3, Z3, T4. cbv zeta in T4. set (D := dot n n) in *.
  assert (Wp : 0 < v * (l * l * (l * l))) by (apply Rmult_lt_0_compat; [lra|apply Rmult_lt_0_compat; exact Ll]).
  assert (Dp : 0 < D) by lra.
  assert (Sid : side a bb c (reals3 q) = t * D /\ side bb c a (reals3 q) = (1 - s - t) * D /\ side c a bb (reals3 q) = s * D /\ dot n (minus (reals3 q) a) = k * D).
  { rewrite Eq. unfold D, n, p. clear. destruct a as ((a1, a2), a3), bb as ((b1, b2), b3), c as ((c1, c2), c3).
    unfold side, dot, rcross, minus, blend, px, py, pz. cbn [fst snd]. repeat split; ring. }
  destruct Sid as (G1 & G2 & G3 & G4).
  assert (ED : 384 * (u53 * (l * l * (l * h))) <= e * D).
  { apply Rle_trans with (e * (v * (l * l * (l * l)))).
    - unfold e. replace (512 * u53 * (h / (l * v)) * (v * (l * l * (l * l)))) with (512 * (u53 * (l * l * (l * h)))) by (field; lra).
      apply Rmult_le_compat_r; [|lra]. apply Rmult_le_pos; [lra|]. apply Rmult_le_pos; [lra|apply Rmult_le_pos; lra].
    - apply Rmult_le_compat_l; [|lra]. unfold e. apply Rmult_le_pos; [lra|]. apply Rmult_le_pos; [lra|]. left. apply Rinv_0_lt_compat. apply Rmult_lt_0_compat; lra. }
  assert (Up : forall x, e <= x -> 384 * (u53 * (l * l * (l * h))) <= x * D) by (intros x Hx; eapply Rle_trans; [exact ED|]; apply Rmult_le_compat_r; lra).
  split.
  - unfold projects_inside. rewrite L1, L2, L3; [reflexivity| | |].
    + rewrite G3. apply Up. exact Es.
    + rewrite G2. apply Up. lra.
    + rewrite G1. apply Up. exact Et.
  - apply (length_hit fl tri res d Fr Hr Fd D1 D2 D3).
    replace (dot n (minus (reals3 q) a) / D) with k in X3, Y3, Z3 by (rewrite G4; field; lra).
    replace (h / (v * v)) with (h * / v * / v) in Dist by (field; lra).
    set (E := 5400 * (u53 * (h * / v * / v)) + 6 * (u53 * b)) in *.
    assert (DD : sqrt (dot (reals3 d) (reals3 d)) <= RayGeoSpec.dist (reals3 q) p + 4 * E).
    { set (w := (px (reals3 q) + px (reals3 d), py (reals3 q) + py (reals3 d), pz (reals3 q) + pz (reals3 d)) : pt).
      replace (sqrt (dot (reals3 d) (reals3 d))) with (RayGeoSpec.dist (reals3 q) w).
      - assert (E0 : 0 <= E) by (eapply Rle_trans; [apply Rabs_pos|exact X3]).
        apply PoseProofs.dist_close; [split; [|split]; rewrite Rminus_diag_eq, Rabs_R0 by reflexivity; exact E0|].
        pose proof (f_equal px Eq) as Ex. pose proof (f_equal py Eq) as Ey. pose proof (f_equal pz Eq) as Ez.
        split; [|split].
        + change (Rabs (px (reals3 q) + px (reals3 d) - px p) <= E). rewrite Ex. replace (px (px p + k * px n, py p + k * py n, pz p + k * pz n) + px (reals3 d) - px p) with (px (reals3 d) - - (k * px n)) by (unfold px; cbn [fst snd]; ring). exact X3.
        + change (Rabs (py (reals3 q) + py (reals3 d) - py p) <= E). rewrite Ey. replace (py (px p + k * px n, py p + k * py n, pz p + k * pz n) + py (reals3 d) - py p) with (py (reals3 d) - - (k * py n)) by (unfold py; cbn [fst snd]; ring). exact Y3.
        + change (Rabs (pz (reals3 q) + pz (reals3 d) - pz p) <= E). rewrite Ez. replace (pz (px p + k * px n, py p + k * py n, pz p + k * pz n) + pz (reals3 d) - pz p) with (pz (reals3 d) - - (k * pz n)) by (unfold pz; cbn [fst snd]; ring). exact Z3.
      - unfold RayGeoSpec.dist. apply f_equal. unfold dot, w, px, py, pz, RayGeoSpec.px, RayGeoSpec.py, RayGeoSpec.pz. cbn [fst snd]. ring. }
    assert (H1 : 0 <= u53 * (h * / v * / v)).
    { assert (0 < / v) by (apply Rinv_0_lt_compat; lra). apply Rmult_le_pos; [lra|]. apply Rmult_le_pos; [apply Rmult_le_pos; lra|lra]. }
    assert (H2 : 0 <= u53 * b) by (apply Rmult_le_pos; lra).
    assert (H3 : 0 <= u53 * B2R res) by (apply Rmult_le_pos; [lra|]; pose proof (bpow_gt_0 radix2 (-100)); lra).
    unfold E in DD. clear - DD Dist H1 H2 H3. lra.
Qed.

Lemma hit_cases (M : mesh_arith) (m : mmap M) v1 v2 v3 n i : voxel_hit M m v1 v2 v3 n i = true ->
  let q := mm_centre M m i in
  let near c := q_leb (m_query M) (vsq M (vsub M c q)) (m_radius_sq M (mm_res M m)) = true in
  (projects_inside M v1 v2 v3 q = true /\ near (vadd M v1 (m_reject M n (vsub M q v1)))) \/
  near (closest_on_segment M v1 v2 q) \/ near (closest_on_segment M v2 v3 q) \/ near (closest_on_segment M v3 v1 q).
Proof.
  unfold voxel_hit, closest_on_triangle. cbv zeta. set (q := mm_centre M m i). destruct (projects_inside M v1 v2 v3 q); [intros H; left; now split|].
  intros H. right. destruct (_ && _) in H; [now left|]. right. destruct (_ && _) in H; [now left|now right].
Qed.

Lemma hit_plane (M : mesh_arith) (m : mmap M) v1 v2 v3 n i : let q := mm_centre M m i in
  projects_inside M v1 v2 v3 q = true /\
  q_leb (m_query M) (vsq M (vsub M (vadd M v1 (m_reject M n (vsub M q v1))) q)) (m_radius_sq M (mm_res M m)) = true ->
  voxel_hit M m v1 v2 v3 n i = true.
Proof. intros q (P & H). unfold voxel_hit, closest_on_triangle. cbv zeta. fold q. rewrite P. exact H. Qed.

(** A voxel that passes the test is near the triangle. *)
Lemma mesh_voxel_near fl tri (v1 v2 v3 q : b64 * b64 * b64) (res : b64) l h b v : let M := double_mesh fl tri in
  let r := B2R res in
  range (-100) 100 l -> l <= h <= bpow radix2 20 * l -> l <= b <= bpow radix2 120 -> / 1024 <= v <= 1 ->
  finite3 v1 -> finite3 v2 -> finite3 v3 -> finite3 q -> is_finite res = true -> bpow radix2 (-100) <= r <= bpow radix2 100 ->
  thick l v (reals3 v1) (reals3 v2) (reals3 v3) ->
  within_each b (reals3 v1) (0, 0, 0) -> within_each b (reals3 v2) (0, 0, 0) -> within_each b (reals3 v3) (0, 0, 0) ->
  within_each h (reals3 q) (reals3 v1) -> within_each h (reals3 q) (reals3 v2) -> within_each h (reals3 q) (reals3 v3) ->
  let near c := q_leb (m_query M) (vsq M (vsub M c q)) (m_radius_sq M res) = true in
  (projects_inside M v1 v2 v3 q = true /\ near (vadd M v1 (m_reject M (vcross M (vsub M v2 v1) (vsub M v3 v1)) (vsub M q v1)))) \/
  near (closest_on_segment M v1 v2 q) \/ near (closest_on_segment M v2 v3 q) \/ near (closest_on_segment M v3 v1 q) ->
  exists p, in_triangle (reals3 v1) (reals3 v2) (reals3 v3) p /\
    RayGeoSpec.dist (reals3 q) p <= sqrt 3 / 2 * r + 32768 * (u53 * (h / (v * v) + b + r)).
Proof.
  intros M r Hl Hh Hb Hv F1 F2 F3 Fq Fr Hr T B1 B2 B3 Q1 Q2 Q3 near H. subst M near. pose proof u53_pos as U.
  pose proof (range_pos _ _ _ Hl) as Lp.
  assert (Rh : range (-100) 120 h).
  { destruct Hl as (A & B). split; [lra|]. apply Rle_trans with (bpow radix2 20 * bpow radix2 100); [|rewrite <- bpow_plus; right; reflexivity].
    apply Rle_trans with (bpow radix2 20 * l); [lra|]. apply Rmult_le_compat_l; [apply bpow_ge_0|exact B]. }
  assert (Rp : 0 < r) by (pose proof (bpow_gt_0 radix2 (-100)); lra).
  assert (J : 1 <= / v) by (rewrite <- Rinv_1; apply Rinv_le; lra).
  replace (h / (v * v)) with (h * / v * / v) by (field; lra).
  assert (J1 : h <= h * / v) by (rewrite <- (Rmult_1_r h) at 1; apply Rmult_le_compat_l; lra).
  assert (J2 : h * / v <= h * / v * / v) by (rewrite <- (Rmult_1_r (h * / v)) at 1; apply Rmult_le_compat_l; lra).
  assert (G : forall x, 0 <= x -> 0 <= u53 * x) by (intros x Hx; apply Rmult_le_pos; lra).
  assert (G1 : u53 * h <= u53 * (h * / v * / v)) by (apply Rmult_le_compat_l; lra).
  assert (G2 : u53 * (h * / v) <= u53 * (h * / v * / v)) by (apply Rmult_le_compat_l; lra).
  pose proof (G (h * / v) ltac:(lra)) as G6. pose proof (G h ltac:(lra)) as G3. pose proof (G b ltac:(lra)) as G4. pose proof (G r ltac:(lra)) as G5.
  assert (Fin : forall x : pt, RayGeoSpec.dist (reals3 q) x <=
      sqrt 3 / 2 * r + 100 * (u53 * r) + 4 * (5400 * (u53 * (h * / v * / v)) + 6 * (u53 * b)) + 6200 * (u53 * (h * / v)) ->
    RayGeoSpec.dist (reals3 q) x <= sqrt 3 / 2 * r + 32768 * (u53 * (h * / v * / v + b + r))) by (intros x Hx; lra).
  assert (Edge : forall x, in_triangle (reals3 v1) (reals3 v2) (reals3 v3) x ->
    RayGeoSpec.dist (reals3 q) x <= sqrt 3 / 2 * r + 100 * (u53 * r) + 4 * (20 * (u53 * h) + 6 * (u53 * b)) ->
    exists p, in_triangle (reals3 v1) (reals3 v2) (reals3 v3) p /\
      RayGeoSpec.dist (reals3 q) p <= sqrt 3 / 2 * r + 32768 * (u53 * (h * / v * / v + b + r))).
  { intros x Ix Hx. exists x. split; [exact Ix|]. apply Fin. lra. }
  assert (Hb' : 0 < b <= bpow radix2 120) by lra.
  destruct H as [(P & H)|[H|[H|H]]].
  - destruct (plane_near fl tri v1 v2 v3 q res l h b v Hl Hh Hb Hv F1 F2 F3 Fq Fr Hr T B1 Q1 Q2 Q3 P H) as (p & Ip & Dp).
    exists p. split; [exact Ip|]. apply Fin. exact Dp.
  - destruct T as (T1 & _). apply (within_each_weaken _ h) in T1; [|lra].
    destruct (segment_near fl tri v1 v2 q res h b Rh Hb' F1 F2 Fq Fr Hr B1 T1 Q1 H) as (t & Ht & Dt).
    exact (Edge _ (proj1 (triangle_edge _ _ _ t Ht)) Dt).
  - destruct T as (_ & T2 & _). apply (within_each_weaken _ h) in T2; [|lra].
    destruct (segment_near fl tri v2 v3 q res h b Rh Hb' F2 F3 Fq Fr Hr B2 T2 Q2 H) as (t & Ht & Dt).
    exact (Edge _ (proj1 (proj2 (triangle_edge _ _ _ t Ht))) Dt).
  - destruct T as (_ & _ & T3 & _). apply (within_each_weaken _ h) in T3; [|lra].
    destruct (segment_near fl tri v3 v1 q res h b Rh Hb' F3 F1 Fq Fr Hr B3 T3 Q3 H) as (t & Ht & Dt).
    exact (Edge _ (proj2 (proj2 (triangle_edge _ _ _ t Ht))) Dt).
Qed.
