(** Distances to triangles computed in binary64. *)
From Coq Require Import ZArith Reals List Bool Lia Lra.
From Flocq Require Import Core BinarySingleNaN.
From Verif Require Import Util Grid EdtFloat FloatModel SdfQueryModel SdfQueryArith SdfDoubleModel SdfDoubleSpec SdfDoubleProofs MeshModel MeshSpec MeshNearSpec MeshDoubleModel.
From Verif Require RayGeoSpec PoseProofs.
Import ListNotations.
Local Open Scope R_scope.

(** ** Numbers with errors *)

(** [a] stands for [X], which is at most [B], up to [k] roundings of [B]. *)
Definition ap (a : b64) (X B k : R) : Prop := is_finite a = true /\ Rabs X <= B /\ Rabs (B2R a - X) <= k * (u53 * B).

Definition fair (B : R) : Prop := bpow radix2 (-900) <= B <= bpow radix2 900.

Lemma u53_tiny : u53 <= / 1000000000000000.
Proof. pose proof u53_val. lra. Qed.

Lemma ap_val a X B k : ap a X B k -> val a (B2R a).
Proof. intros (F & _). now split. Qed.

Lemma ap_bound a X B k : 0 < B -> 0 <= k <= 100000 -> ap a X B k -> Rabs (B2R a) <= (1 + / 1000000000) * B.
Proof.
  intros HB Hk (_ & HX & E). pose proof u53_pos. pose proof u53_tiny.
  assert (k * (u53 * B) <= / 1000000000 * B).
  { rewrite <- Rmult_assoc. apply Rmult_le_compat_r; [lra|]. apply Rle_trans with (100000 * / 1000000000000000); [apply Rmult_le_compat; lra|lra]. }
  replace (B2R a) with (X + (B2R a - X)) by ring. eapply Rle_trans; [apply Rabs_triang|]. lra.
Qed.

Lemma fair_pos B : fair B -> 0 < B.
Proof. intros (H & _). pose proof (bpow_gt_0 radix2 (-900)). lra. Qed.

Lemma fair_huge B x : fair B -> Rabs x <= 8 * B -> Rabs x <= huge.
Proof.
  intros (_ & H) Hx. eapply Rle_trans; [exact Hx|]. apply Rle_trans with (bpow radix2 3 * bpow radix2 900).
  - change (bpow radix2 3) with 8. lra.
  - rewrite <- bpow_plus. apply bpow_le. lia.
Qed.

Lemma rnd_fair B x : fair B -> Rabs (rnd x - x) <= u53 * (Rabs x + B).
Proof. intros (H & _). apply rnd_close. eapply Rle_trans; [|exact H]. apply bpow_le. lia. Qed.

Lemma ap_diff (a c : b64) L : fair L -> is_finite a = true -> is_finite c = true -> Rabs (B2R a - B2R c) <= L ->
  ap (b64_sub a c) (B2R a - B2R c) L 2.
Proof.
  intros HL Fa Fc H. pose proof (fair_pos L HL). pose proof u53_pos.
  destruct (sub_val a c (B2R a) (B2R c) (conj Fa eq_refl) (conj Fc eq_refl)) as (F & E); [apply (fair_huge L); [exact HL|lra]|].
  split; [exact F|]. split; [exact H|]. rewrite E. eapply Rle_trans; [apply (rnd_fair L _ HL)|].
  replace (2 * (u53 * L)) with (u53 * (L + L)) by ring. apply Rmult_le_compat_l; lra.
Qed.

Lemma ap_weaken a X B k l : 0 < B -> k <= l -> ap a X B k -> ap a X B l.
Proof.
  intros HB H (F & HX & E). split; [exact F|]. split; [exact HX|]. eapply Rle_trans; [exact E|].
  apply Rmult_le_compat_r; [apply Rmult_le_pos; [left; apply u53_pos|lra]|exact H].
Qed.

Lemma ap_sum (minus : bool) a X B k c Y C l m : fair (B + C) -> 0 < B -> 0 < C -> 0 <= k <= 100000 -> 0 <= l <= 100000 -> k <= m -> l <= m ->
  ap a X B k -> ap c Y C l ->
  ap ((if minus then b64_sub else b64_add) a c) (if minus then X - Y else X + Y) (B + C) (m + 3).
Proof.
  intros HF HB HC Hk Hl Hm1 Hm2 HA HA'. pose proof (ap_bound _ _ _ _ HB Hk HA) as A1. pose proof (ap_bound _ _ _ _ HC Hl HA') as A2.
  destruct HA as (Fa & Xb & Ea), HA' as (Fc & Yb & Ec). pose proof u53_pos as U.
  assert (K1 : k * (u53 * B) <= m * (u53 * B)) by (apply Rmult_le_compat_r; [apply Rmult_le_pos; lra|lra]).
  assert (K2 : l * (u53 * C) <= m * (u53 * C)) by (apply Rmult_le_compat_r; [apply Rmult_le_pos; lra|lra]).
  assert (Q : forall z, Rabs z <= (1 + / 1000000000) * (B + C) -> Rabs (rnd z - z) <= 3 * (u53 * (B + C)) /\ Rabs z <= huge).
  { intros z Hz. split; [|apply (fair_huge _ _ HF); lra]. eapply Rle_trans; [apply (rnd_fair _ _ HF)|].
    replace (3 * (u53 * (B + C))) with (u53 * (2 * (B + C) + (B + C))) by ring. apply Rmult_le_compat_l; lra. }
  apply Rabs_le_inv in A1, A2, Xb, Yb, Ea, Ec. assert (D : m * (u53 * (B + C)) = m * (u53 * B) + m * (u53 * C)) by ring.
  destruct minus.
  - destruct (Q (B2R a - B2R c)) as (Q1 & Q2); [apply Rabs_le; lra|].
    destruct (sub_val a c _ _ (conj Fa eq_refl) (conj Fc eq_refl) Q2) as (F & E). split; [exact F|]. split; [apply Rabs_le; lra|].
    rewrite E. apply Rabs_le_inv in Q1. apply Rabs_le. lra.
  - destruct (Q (B2R a + B2R c)) as (Q1 & Q2); [apply Rabs_le; lra|].
    destruct (add_val a c _ _ (conj Fa eq_refl) (conj Fc eq_refl) Q2) as (F & E). split; [exact F|]. split; [apply Rabs_le; lra|].
    rewrite E. apply Rabs_le_inv in Q1. apply Rabs_le. lra.
Qed.

Lemma ap_mul a X B k c Y C l : fair (B * C) -> 0 < B -> 0 < C -> 0 <= k <= 100000 -> 0 <= l <= 100000 ->
  ap a X B k -> ap c Y C l -> ap (b64_mul a c) (X * Y) (B * C) (k + l + 4).
Proof.
  intros HF HB HC Hk Hl HA HA'. pose proof (ap_bound _ _ _ _ HB Hk HA) as A1. pose proof (ap_bound _ _ _ _ HC Hl HA') as A2.
  destruct HA as (Fa & Xb & Ea), HA' as (Fc & Yb & Ec). pose proof u53_pos as U. pose proof (fair_pos _ HF) as P.
  assert (Q : Rabs (B2R a * B2R c) <= 2 * (B * C)).
  { rewrite Rabs_mult. apply Rle_trans with ((1 + / 1000000000) * B * ((1 + / 1000000000) * C)).
    - apply Rmult_le_compat; [apply Rabs_pos|apply Rabs_pos|exact A1|exact A2].
    - replace ((1 + / 1000000000) * B * ((1 + / 1000000000) * C)) with (((1 + / 1000000000) * (1 + / 1000000000)) * (B * C)) by ring. apply Rmult_le_compat_r; lra. }
  destruct (mul_val a c _ _ (conj Fa eq_refl) (conj Fc eq_refl) ltac:(apply (fair_huge _ _ HF); lra)) as (F & E).
  split; [exact F|]. split; [rewrite Rabs_mult; apply Rmult_le_compat; try apply Rabs_pos; assumption|].
  rewrite E. assert (E1 : Rabs (rnd (B2R a * B2R c) - B2R a * B2R c) <= 3 * (u53 * (B * C))).
  { eapply Rle_trans; [apply (rnd_fair _ _ HF)|]. replace (3 * (u53 * (B * C))) with (u53 * (2 * (B * C) + B * C)) by ring. apply Rmult_le_compat_l; lra. }
  assert (E2 : Rabs ((B2R a - X) * B2R c) <= (k + / 1000) * (u53 * (B * C))).
  { rewrite Rabs_mult. apply Rle_trans with (k * (u53 * B) * ((1 + / 1000000000) * C)).
    - apply Rmult_le_compat; [apply Rabs_pos|apply Rabs_pos|exact Ea|exact A2].
    - replace (k * (u53 * B) * ((1 + / 1000000000) * C)) with ((k + k * / 1000000000) * (u53 * (B * C))) by ring.
      apply Rmult_le_compat_r; [apply Rmult_le_pos; lra|]. lra. }
  assert (E3 : Rabs (X * (B2R c - Y)) <= l * (u53 * (B * C))).
  { rewrite Rabs_mult. apply Rle_trans with (B * (l * (u53 * C))).
    - apply Rmult_le_compat; [apply Rabs_pos|apply Rabs_pos|exact Xb|exact Ec].
    - right. ring. }
  replace (rnd (B2R a * B2R c) - X * Y) with ((rnd (B2R a * B2R c) - B2R a * B2R c) + ((B2R a - X) * B2R c + X * (B2R c - Y))) by ring.
  eapply Rle_trans; [apply Rabs_triang|]. eapply Rle_trans; [apply Rplus_le_compat_l, Rabs_triang|].
  assert (0 < u53 * (B * C)) by (apply Rmult_lt_0_compat; lra).
  apply Rle_trans with (3 * (u53 * (B * C)) + ((k + / 1000) * (u53 * (B * C)) + l * (u53 * (B * C)))); [lra|].
  replace (3 * (u53 * (B * C)) + ((k + / 1000) * (u53 * (B * C)) + l * (u53 * (B * C)))) with ((3 + k + / 1000 + l) * (u53 * (B * C))) by ring.
  apply Rmult_le_compat_r; lra.
Qed.

(** ** Vectors *)

Section Vec.
Variables (fl : b64 -> Z) (tri : b64 * b64 * b64 -> b64 * b64 * b64 -> list b64 -> b64 * b64 * b64 -> b64).
Notation M := (double_mesh fl tri).
Notation vec := (qvec (m_query M)).

Definition ap3 (a : vec) (X : pt) (B k : R) : Prop := ap (fst (fst a)) (px X) B k /\ ap (snd (fst a)) (py X) B k /\ ap (snd a) (pz X) B k.

Lemma ap3_diff (a c : vec) L : fair L -> finite3 a -> finite3 c ->
  Rabs (px (reals3 a) - px (reals3 c)) <= L -> Rabs (py (reals3 a) - py (reals3 c)) <= L -> Rabs (pz (reals3 a) - pz (reals3 c)) <= L ->
  ap3 (vsub M a c) (minus (reals3 a) (reals3 c)) L 2.
Proof using.
  intros HL (F1 & F2 & F3) (G1 & G2 & G3) H1 H2 H3. split; [|split]; apply ap_diff; assumption.
Qed.

Lemma ap3_cross (a c : vec) X Y B C k l : fair (B * C) -> fair (B * C + B * C) -> 0 < B -> 0 < C -> 0 <= k <= 10000 -> 0 <= l <= 10000 ->
  ap3 a X B k -> ap3 c Y C l -> ap3 (vcross M a c) (rcross X Y) (B * C + B * C) (k + l + 7).
Proof using.
  intros HF HF2 HB HC Hk Hl (A1 & A2 & A3) (C1 & C2 & C3). pose proof (fair_pos _ HF).
  replace (k + l + 7) with (k + l + 4 + 3) by ring.
  split; [|split]; apply (ap_sum true) with (k + l + 4) (k + l + 4); try lra; try assumption; apply ap_mul; try assumption; lra.
Qed.

Lemma ap_dot (a c : vec) X Y B C k l : fair (B * C) -> fair (B * C + B * C) -> fair (B * C + (B * C + B * C)) -> 0 < B -> 0 < C ->
  0 <= k <= 10000 -> 0 <= l <= 10000 ->
  ap3 a X B k -> ap3 c Y C l -> ap (vdot M a c) (dot X Y) (B * C + (B * C + B * C)) (k + l + 10).
Proof using.
  intros HF HF2 HF3 HB HC Hk Hl (A1 & A2 & A3) (C1 & C2 & C3). pose proof (fair_pos _ HF).
  replace (k + l + 10) with (k + l + 7 + 3) by ring. unfold dot. rewrite Rplus_assoc.
  apply (ap_sum false) with (k + l + 4) (k + l + 7); try lra; try assumption.
  - apply ap_mul; try assumption; lra.
  - replace (k + l + 7) with (k + l + 4 + 3) by ring.
    apply (ap_sum false) with (k + l + 4) (k + l + 4); try lra; try assumption; apply ap_mul; try assumption; lra.
Qed.
End Vec.

(** ** Barycentric coordinates *)

(** What same_side computes without rounding. *)
Definition side (a b p q : pt) : R := dot (rcross (minus b a) (minus p a)) (rcross (minus b a) (minus q a)).

Lemma sides_sum a b c q : let n := rcross (minus b a) (minus c a) in side a b c q + side b c a q + side c a b q = dot n n.
Proof.
  destruct a as ((a1, a2), a3), b as ((b1, b2), b3), c as ((c1, c2), c3), q as ((q1, q2), q3).
  cbv [side dot rcross minus px py pz fst snd]. ring.
Qed.

Lemma sides_foot a b c q : let n := rcross (minus b a) (minus c a) in
  let foot (f : pt -> R) := dot n n * f q - dot n (minus q a) * f n = side b c a q * f a + side c a b q * f b + side a b c q * f c in
  foot px /\ foot py /\ foot pz.
Proof.
  destruct a as ((a1, a2), a3), b as ((b1, b2), b3), c as ((c1, c2), c3), q as ((q1, q2), q3).
  cbv [side dot rcross minus px py pz fst snd]. split; [ring|split; ring].
Qed.

Notation close := PoseProofs.close.

(** If the point projects into the triangle but for a small fraction, the triangle comes near
    its foot on the plane. *)
Lemma foot_near a b c q l e : let n := rcross (minus b a) (minus c a) in let D := dot n n in
  let k := dot n (minus q a) / D in
  0 < D -> 0 <= e <= / 4 -> close l b a -> close l c a ->
  - (e * D) <= side a b c q -> - (e * D) <= side b c a q -> - (e * D) <= side c a b q ->
  exists p, in_triangle a b c p /\ close (4 * (e * l)) p (px q - k * px n, py q - k * py n, pz q - k * pz n).
Proof.
  intros n D k HD He (B1 & B2 & B3) (C1 & C2 & C3) S3 S1 S2.
  pose proof (sides_sum a b c q) as Sum. pose proof (sides_foot a b c q) as (X & Y & Z). cbv zeta in Sum, X, Y, Z. fold n in Sum, X, Y, Z. fold D in Sum, X, Y, Z.
  set (s1 := side b c a q) in *. set (s2 := side c a b q) in *. set (s3 := side a b c q) in *.
  set (i := / D). assert (Hi : i * D = 1) by (unfold i; field; lra). assert (Ip : 0 < i) by (now apply Rinv_0_lt_compat).
  set (y2 := s2 * i). set (y3 := s3 * i).
  assert (T : forall x, - (e * D) <= x -> - e <= x * i).
  { intros x Hx. replace (- e) with (- (e * D) * i) by (replace (- (e * D) * i) with (- (e * (i * D))) by ring; rewrite Hi; ring). apply Rmult_le_compat_r; lra. }
  pose proof (T _ S1) as L1. pose proof (T _ S2) as L2. pose proof (T _ S3) as L3. clear T.
  assert (L0 : s1 * i + y2 + y3 = 1) by (unfold y2, y3; rewrite <- Hi, <- Sum; ring).
  fold y2 in L2. fold y3 in L3.
  assert (F : forall f : pt -> R, D * f q - dot n (minus q a) * f n = s1 * f a + s2 * f b + s3 * f c ->
    f q - k * f n = f a + y2 * (f b - f a) + y3 * (f c - f a)).
  { intros f Hf. replace (f q - k * f n) with (i * (D * f q - dot n (minus q a) * f n)).
    - rewrite Hf. replace (f a) with ((s1 * i + y2 + y3) * f a) at 2 by (rewrite L0; ring). unfold y2, y3. ring.
    - unfold k, Rdiv. fold i. replace (f q) with (i * D * f q) at 2 by (rewrite Hi; ring). ring. }
  set (g := / (1 + 3 * e)). assert (Hg : g * (1 + 3 * e) = 1) by (unfold g; field; lra). assert (Gp : 0 < g) by (apply Rinv_0_lt_compat; lra).
  assert (G : forall y, - e <= y <= 1 + 2 * e -> 0 <= (y + e) * g /\ Rabs ((y + e) * g - y) <= 2 * e).
  { intros y Hy. split; [apply Rmult_le_pos; lra|].
    replace ((y + e) * g - y) with (e * ((1 - 3 * y) * g)) by (replace y with (y * (g * (1 + 3 * e))) at 3 by (rewrite Hg; ring); ring).
    assert (- 2 <= (1 - 3 * y) * g <= 1).
    { replace (-2) with (- 2 * (1 + 3 * e) * g) by (replace (- 2 * (1 + 3 * e) * g) with (- 2 * (g * (1 + 3 * e))) by ring; rewrite Hg; ring).
      split; [apply Rmult_le_compat_r; lra|]. rewrite <- Hg, (Rmult_comm g). apply Rmult_le_compat_r; lra. }
    rewrite Rabs_mult, (Rabs_pos_eq e) by lra. rewrite (Rmult_comm 2 e). apply Rmult_le_compat_l; [lra|]. apply Rabs_le. lra. }
  destruct (G y2 ltac:(lra)) as (G2 & H2). destruct (G y3 ltac:(lra)) as (G3 & H3).
  exists (blend a b c ((y2 + e) * g) ((y3 + e) * g)). split.
  - exists ((y2 + e) * g), ((y3 + e) * g). split; [exact G2|]. split; [exact G3|]. split; [|reflexivity].
    rewrite <- Rmult_plus_distr_r. rewrite <- Hg. rewrite (Rmult_comm g). apply Rmult_le_compat_r; lra.
  - assert (P : forall x1 x2 x3, Rabs (x2 - x1) <= l -> Rabs (x3 - x1) <= l ->
      Rabs (x1 + (y2 + e) * g * (x2 - x1) + (y3 + e) * g * (x3 - x1) - (x1 + y2 * (x2 - x1) + y3 * (x3 - x1))) <= 4 * (e * l)).
    { intros x1 x2 x3 K2 K3. 
      replace (x1 + (y2 + e) * g * (x2 - x1) + (y3 + e) * g * (x3 - x1) - (x1 + y2 * (x2 - x1) + y3 * (x3 - x1))) with
        (((y2 + e) * g - y2) * (x2 - x1) + ((y3 + e) * g - y3) * (x3 - x1)) by ring.
      eapply Rle_trans; [apply Rabs_triang|]. rewrite !Rabs_mult. replace (4 * (e * l)) with (2 * e * l + 2 * e * l) by ring.
      apply Rplus_le_compat; apply Rmult_le_compat; try apply Rabs_pos; assumption. }
    split; [|split]; [change (Rabs (px (blend a b c ((y2 + e) * g) ((y3 + e) * g)) - (px q - k * px n)) <= 4 * (e * l)); rewrite (F px X)
      |change (Rabs (py (blend a b c ((y2 + e) * g) ((y3 + e) * g)) - (py q - k * py n)) <= 4 * (e * l)); rewrite (F py Y)
      |change (Rabs (pz (blend a b c ((y2 + e) * g) ((y3 + e) * g)) - (pz q - k * pz n)) <= 4 * (e * l)); rewrite (F pz Z)];
      apply P; assumption.
Qed.

(** ** The test of a voxel *)

Section Hit.
Variables (fl : b64 -> Z) (tri : b64 * b64 * b64 -> b64 * b64 * b64 -> list b64 -> b64 * b64 * b64 -> b64).
Notation M := (double_mesh fl tri).
Notation vec := (qvec (m_query M)).

Lemma sqrt3_val : ap (b64_sqrt (b64_lit 3 0)) (sqrt 3) 2 2.
Proof using.
  destruct (lit_val 3 0 ltac:(reflexivity) ltac:(lia)) as (F & E). cbn [bpow] in E. rewrite Rmult_1_r in E.
  destruct (Bsqrt_correct 53 1024 prec53 emax1024 mode_NE (b64_lit 3 0)) as (S1 & S2 & _).
  change (round_mode mode_NE) with ZnearestE in S1. rewrite E in S1.
  assert (Q : 1 <= sqrt 3 <= 2).
  { split; [rewrite <- sqrt_1; apply sqrt_le_1_alt; lra|]. replace 2 with (sqrt (2 * 2)) by (apply sqrt_square; lra). apply sqrt_le_1_alt. lra. }
  assert (S2' : is_finite (b64_sqrt (b64_lit 3 0)) = true).
  { unfold b64_sqrt. rewrite S2. destruct (b64_lit 3 0) as [s|s| |[|] m ex Hb]; try discriminate F; try reflexivity.
    exfalso. assert (B2R (B754_finite true m ex Hb : b64) < 0) by (apply F2R_lt_0; reflexivity). lra. }
  split; [exact S2'|]. split; [rewrite Rabs_pos_eq; lra|].
  unfold b64_sqrt. rewrite S1. eapply Rle_trans; [apply (rnd_close _ 1)|].
  - change 1 with (bpow radix2 0). apply bpow_le. lia.
  - rewrite Rabs_pos_eq by lra. pose proof u53_pos. replace (2 * (u53 * 2)) with (u53 * 4) by ring. apply Rmult_le_compat_l; lra.
Qed.

Lemma mesh_radius_val res : is_finite res = true -> bpow radix2 (-100) <= B2R res <= bpow radix2 100 ->
  let r := B2R res in is_finite (m_radius_sq M res) = true /\
  3 / 4 * (r * r) - 96 * (u53 * (r * r)) <= B2R (m_radius_sq M res) <= 3 / 4 * (r * r) + 96 * (u53 * (r * r)).
Proof using.
  intros Fr Hr r. fold r in Hr. assert (Rp : 0 < r) by (pose proof (bpow_gt_0 radix2 (-100)); lra).
  assert (F1 : forall k, 1 <= k <= bpow radix2 50 -> fair (r * k)).
  { intros k Hk. split.
    - apply Rle_trans with (bpow radix2 (-100) * 1); [rewrite Rmult_1_r; apply bpow_le; lia|]. apply Rmult_le_compat; try lra; apply bpow_ge_0.
    - apply Rle_trans with (bpow radix2 100 * bpow radix2 50); [apply Rmult_le_compat; lra|]. rewrite <- bpow_plus. apply bpow_le. lia. }
  assert (B50 : 4 <= bpow radix2 50) by (change 4 with (bpow radix2 2); apply bpow_le; lia).
  assert (Fsq : fair (r * 1 * 2 * (r * 1 * 2))).
  { replace (r * 1 * 2 * (r * 1 * 2)) with (4 * (r * r)) by ring. split.
    - apply Rle_trans with (1 * (bpow radix2 (-100) * bpow radix2 (-100))).
      + rewrite Rmult_1_l, <- bpow_plus. apply bpow_le. lia.
      + assert (bpow radix2 (-100) * bpow radix2 (-100) <= r * r) by (apply Rmult_le_compat; try apply bpow_ge_0; apply Hr).
        pose proof (Rmult_lt_0_compat _ _ Rp Rp). lra.
    - apply Rle_trans with (bpow radix2 2 * (bpow radix2 100 * bpow radix2 100)).
      + apply Rmult_le_compat; [lra|apply Rmult_le_pos; lra|change (bpow radix2 2) with 4; lra|]. apply Rmult_le_compat; lra || apply Hr.
      + rewrite <- !bpow_plus. apply bpow_le. lia. }
  assert (Ar : ap res r r 0) by (split; [exact Fr|]; split; [rewrite Rabs_pos_eq; lra|]; unfold r; rewrite Rminus_diag_eq, Rabs_R0 by reflexivity; lra).
  assert (Ah : ap (b64_lit 1 (-1)) (1 / 2) 1 0).
  { destruct half_val as (F & E). split; [exact F|]. split; [rewrite Rabs_pos_eq; lra|]. rewrite E, Rminus_diag_eq, Rabs_R0 by reflexivity. lra. }
  pose proof (ap_mul res r r 0 _ _ 1 0 (F1 1 ltac:(lra)) Rp ltac:(lra) ltac:(lra) ltac:(lra) Ar Ah) as A1.
  pose proof (ap_mul _ _ (r * 1) (0 + 0 + 4) _ _ 2 2 ltac:(rewrite Rmult_1_r; exact (F1 2 ltac:(lra))) ltac:(lra) ltac:(lra) ltac:(lra) ltac:(lra) A1 sqrt3_val) as A2.
  pose proof (ap_mul _ _ (r * 1 * 2) (0 + 0 + 4 + 2 + 4) _ _ (r * 1 * 2) (0 + 0 + 4 + 2 + 4) Fsq ltac:(lra) ltac:(lra) ltac:(lra) ltac:(lra) A2 A2) as (F3 & _ & E3).
  split; [exact F3|]. apply Rabs_le_inv in E3.
  replace (r * (1 / 2) * sqrt 3 * (r * (1 / 2) * sqrt 3)) with (3 / 4 * (r * r)) in E3
    by (replace (r * (1 / 2) * sqrt 3 * (r * (1 / 2) * sqrt 3)) with (r * r * / 4 * (sqrt 3 * sqrt 3)) by (field); rewrite sqrt_sqrt by lra; field).
  replace ((0 + 0 + 4 + 2 + 4 + (0 + 0 + 4 + 2 + 4) + 4) * (u53 * (r * 1 * 2 * (r * 1 * 2)))) with (96 * (u53 * (r * r))) in E3 by ring.
  change (m_radius_sq M res) with (b64_mul (b64_mul (b64_mul res (b64_lit 1 (-1))) (b64_sqrt (b64_lit 3 0))) (b64_mul (b64_mul res (b64_lit 1 (-1))) (b64_sqrt (b64_lit 3 0)))).
  lra.
Qed.

(** The squared length of a difference, up to rounding. *)
Lemma square_length (d : vec) r : bpow radix2 (-100) <= r <= bpow radix2 100 -> finite3 d ->
  Rabs (px (reals3 d)) <= bpow radix2 300 -> Rabs (py (reals3 d)) <= bpow radix2 300 -> Rabs (pz (reals3 d)) <= bpow radix2 300 ->
  let V := dot (reals3 d) (reals3 d) in
  is_finite (vsq M d : b64) = true /\ 0 <= V /\ Rabs (B2R (vsq M d : b64) - V) <= u53 * (7 * V + 13 * (r * r)).
Proof using.
  intros Hr (F1 & F2 & F3) B1 B2 B3 V.
  assert (Rp : 0 < r) by (pose proof (bpow_gt_0 radix2 (-100)); lra).
  pose proof u53_pos as U. pose proof u53_tiny as Ut.
  set (rr := r * r). assert (RR : 0 < rr) by (apply Rmult_lt_0_compat; exact Rp).
  assert (Sr : bpow radix2 (-1000) <= rr).
  { apply Rle_trans with (bpow radix2 (-100) * bpow radix2 (-100)); [rewrite <- bpow_plus; apply bpow_le; lia|]. apply Rmult_le_compat; try apply bpow_ge_0; apply Hr. }
  destruct d as ((dx, dy), dz). unfold V; clear V. unfold reals3, px, py, pz in *. cbn [fst snd] in *.
  change (vsq M (dx, dy, dz)) with (b64_add (b64_mul dx dx) (b64_add (b64_mul dy dy) (b64_mul dz dz))). unfold dot, px, py, pz. cbn [fst snd].
  set (x := B2R dx) in *. set (y := B2R dy) in *. set (z := B2R dz) in *.
  assert (SQ : forall w, Rabs w <= bpow radix2 300 -> 0 <= w * w <= bpow radix2 600).
  { intros w Hw. split; [apply Rle_0_sqr|]. rewrite <- (Rabs_pos_eq (w * w)) by apply Rle_0_sqr. rewrite Rabs_mult.
    replace (bpow radix2 600) with (bpow radix2 300 * bpow radix2 300) by (now rewrite <- bpow_plus). apply Rmult_le_compat; try apply Rabs_pos; exact Hw. }
  pose proof (SQ x B1) as X. pose proof (SQ y B2) as Y. pose proof (SQ z B3) as Z.
  assert (HG : 1000 * bpow radix2 600 <= huge).
  { apply Rle_trans with (bpow radix2 10 * bpow radix2 600); [apply Rmult_le_compat_r; [apply bpow_ge_0|cbn; lra]|]. rewrite <- bpow_plus. apply bpow_le. lia. }
  assert (G6 : rr <= bpow radix2 600).
  { apply Rle_trans with (bpow radix2 100 * bpow radix2 100); [apply Rmult_le_compat; lra|]. rewrite <- bpow_plus. apply bpow_le. lia. }
  set (XX := x * x) in *. set (YY := y * y) in *. set (ZZ := z * z) in *.
  assert (RN : forall w c, 0 <= c -> Rabs w <= c -> Rabs (rnd w - w) <= u53 * (c + rr)).
  { intros w c Hc Hw. eapply Rle_trans; [apply (rnd_close w rr Sr)|]. apply Rmult_le_compat_l; lra. }
  destruct (mul_val dx dx _ _ (conj F1 eq_refl) (conj F1 eq_refl)) as (Mx & Ex); [fold x; fold XX; rewrite Rabs_pos_eq; lra|].
  destruct (mul_val dy dy _ _ (conj F2 eq_refl) (conj F2 eq_refl)) as (My & Ey); [fold y; fold YY; rewrite Rabs_pos_eq; lra|].
  destruct (mul_val dz dz _ _ (conj F3 eq_refl) (conj F3 eq_refl)) as (Mz & Ez); [fold z; fold ZZ; rewrite Rabs_pos_eq; lra|].
  fold x in Ex. fold y in Ey. fold z in Ez. fold XX in Ex. fold YY in Ey. fold ZZ in Ez.
  pose proof (RN XX XX (proj1 X) ltac:(rewrite Rabs_pos_eq; lra)) as R1. pose proof (RN YY YY (proj1 Y) ltac:(rewrite Rabs_pos_eq; lra)) as R2.
  pose proof (RN ZZ ZZ (proj1 Z) ltac:(rewrite Rabs_pos_eq; lra)) as R3.
  rewrite <- Ex in R1. rewrite <- Ey in R2. rewrite <- Ez in R3. apply Rabs_le_inv in R1, R2, R3.
  set (mx := B2R (b64_mul dx dx)) in *. set (my := B2R (b64_mul dy dy)) in *. set (mz := B2R (b64_mul dz dz)) in *.
  assert (UB : forall c, 0 <= c -> u53 * c <= c) by (intros c Hc; rewrite <- (Rmult_1_l c) at 2; apply Rmult_le_compat_r; lra).
  pose proof (UB (XX + rr) ltac:(lra)). pose proof (UB (YY + rr) ltac:(lra)). pose proof (UB (ZZ + rr) ltac:(lra)).
  assert (A1 : Rabs (my + mz) <= 2 * (YY + ZZ) + 2 * rr) by (apply Rabs_le; lra).
  destruct (add_val _ _ my mz (conj My eq_refl) (conj Mz eq_refl)) as (Ms & Es); [eapply Rle_trans; [exact A1|lra]|].
  pose proof (RN (my + mz) (2 * (YY + ZZ) + 2 * rr) ltac:(lra) A1) as R4. rewrite <- Es in R4. apply Rabs_le_inv in R4. set (ms := B2R (b64_add (b64_mul dy dy) (b64_mul dz dz))) in *.
  pose proof (UB (2 * (YY + ZZ) + 2 * rr + rr) ltac:(lra)).
  assert (A2 : Rabs (mx + ms) <= 4 * (XX + YY + ZZ) + 6 * rr) by (apply Rabs_le; lra).
  destruct (add_val _ _ mx ms (conj Mx eq_refl) (conj Ms eq_refl)) as (Mt & Et); [eapply Rle_trans; [exact A2|lra]|].
  pose proof (RN (mx + ms) (4 * (XX + YY + ZZ) + 6 * rr) ltac:(lra) A2) as R5. rewrite <- Et in R5. apply Rabs_le_inv in R5.
  split; [exact Mt|]. split; [lra|].
  assert (0 <= u53 * XX) by (apply Rmult_le_pos; lra). assert (0 <= u53 * YY) by (apply Rmult_le_pos; lra). assert (0 <= u53 * ZZ) by (apply Rmult_le_pos; lra).
  assert (0 < u53 * rr) by (apply Rmult_lt_0_compat; lra). apply Rabs_le. lra.
Qed.

Lemma sqrt3_low : 17 / 10 <= sqrt 3.
Proof using. replace (17 / 10) with (sqrt ((17 / 10) * (17 / 10))) by (apply sqrt_square; lra). apply sqrt_le_1_alt. lra. Qed.

(** A difference that passes the test is not longer than the radius of the sphere around a
    voxel, up to rounding. *)
Lemma hit_length res (d : vec) : is_finite res = true -> bpow radix2 (-100) <= B2R res <= bpow radix2 100 -> finite3 d ->
  Rabs (px (reals3 d)) <= bpow radix2 300 -> Rabs (py (reals3 d)) <= bpow radix2 300 -> Rabs (pz (reals3 d)) <= bpow radix2 300 ->
  q_leb (m_query M) (vsq M d) (m_radius_sq M res) = true ->
  sqrt (dot (reals3 d) (reals3 d)) <= sqrt 3 / 2 * B2R res + 100 * (u53 * B2R res).
Proof using.
  intros Fr Hr Fd B1 B2 B3 H. destruct (mesh_radius_val res Fr Hr) as (FR & _ & ER). destruct (square_length d _ Hr Fd B1 B2 B3) as (FV & Vp & EV).
  set (r := B2R res) in *. set (V := dot (reals3 d) (reals3 d)) in *.
  assert (Rp : 0 < r) by (pose proof (bpow_gt_0 radix2 (-100)); lra). pose proof u53_pos as U. pose proof u53_tiny as Ut.
  set (rr := r * r) in *. assert (RR : 0 < rr) by (apply Rmult_lt_0_compat; exact Rp).
  change (b64_leb (vsq M d) (m_radius_sq M res) = true) in H. unfold b64_leb in H. rewrite (Bleb_correct 53 1024 _ _ FV FR) in H.
  match type of H with Rle_bool ?x ?y = true => pose proof (Rle_bool_spec x y) as Sp; rewrite H in Sp; inversion Sp as [Hle|]; clear Sp H end.
  apply Rabs_le_inv in EV.
  assert (T1 : V - u53 * (7 * V + 13 * rr) <= 3 / 4 * rr + 96 * (u53 * rr)) by (change (B2R (vsq M d) <= B2R (m_radius_sq M res)) in Hle; eapply Rle_trans; [|exact ER]; eapply Rle_trans; [|exact Hle]; lra).
  assert (T2 : V <= 2 * rr).
  { assert (u53 * V <= / 1000 * V) by (apply Rmult_le_compat_r; lra). assert (u53 * rr <= / 1000 * rr) by (apply Rmult_le_compat_r; lra). lra. }
  assert (W : 0 < u53 * rr) by (apply Rmult_lt_0_compat; lra).
  assert (T3 : V <= 3 / 4 * rr + 130 * (u53 * rr)).
  { assert (u53 * V <= u53 * (2 * rr)) by (apply Rmult_le_compat_l; lra). lra. }
  pose proof sqrt3_low as Q.
  assert (Pp : 0 <= sqrt 3 / 2 * r + 100 * (u53 * r)) by (apply Rplus_le_le_0_compat; repeat apply Rmult_le_pos; lra).
  rewrite <- (sqrt_square _ Pp). apply sqrt_le_1_alt.
  replace ((sqrt 3 / 2 * r + 100 * (u53 * r)) * (sqrt 3 / 2 * r + 100 * (u53 * r))) with
    ((sqrt 3 * sqrt 3) * / 4 * rr + 100 * sqrt 3 * (u53 * rr) + 10000 * (u53 * r) * (u53 * r)) by (unfold rr; field).
  rewrite sqrt_sqrt by lra.
  assert (170 * (u53 * rr) <= 100 * sqrt 3 * (u53 * rr)) by (apply Rmult_le_compat_r; lra).
  assert (0 <= 10000 * (u53 * r) * (u53 * r)) by (assert (0 < u53 * r) by (apply Rmult_lt_0_compat; lra); apply Rmult_le_pos; lra).
  lra.
Qed.

(** A difference clearly shorter than the radius passes. *)
Lemma length_hit res (d : vec) : is_finite res = true -> bpow radix2 (-100) <= B2R res <= bpow radix2 100 -> finite3 d ->
  Rabs (px (reals3 d)) <= bpow radix2 300 -> Rabs (py (reals3 d)) <= bpow radix2 300 -> Rabs (pz (reals3 d)) <= bpow radix2 300 ->
  sqrt (dot (reals3 d) (reals3 d)) <= sqrt 3 / 2 * B2R res - 100 * (u53 * B2R res) ->
  q_leb (m_query M) (vsq M d) (m_radius_sq M res) = true.
Proof using.
  intros Fr Hr Fd B1 B2 B3 H. destruct (mesh_radius_val res Fr Hr) as (FR & ER & _). destruct (square_length d _ Hr Fd B1 B2 B3) as (FV & Vp & EV).
  set (r := B2R res) in *. set (V := dot (reals3 d) (reals3 d)) in *.
  assert (Rp : 0 < r) by (pose proof (bpow_gt_0 radix2 (-100)); lra). pose proof u53_pos as U. pose proof u53_tiny as Ut.
  set (rr := r * r) in *. assert (RR : 0 < rr) by (apply Rmult_lt_0_compat; exact Rp).
  apply Rabs_le_inv in EV. pose proof sqrt3_low as Q. assert (W : 0 < u53 * rr) by (apply Rmult_lt_0_compat; lra).
  assert (Vb : V <= 3 / 4 * rr - 160 * (u53 * rr)).
  { rewrite <- (sqrt_sqrt V Vp). apply Rle_trans with ((sqrt 3 / 2 * r - 100 * (u53 * r)) * (sqrt 3 / 2 * r - 100 * (u53 * r))).
    - apply Rmult_le_compat; try apply sqrt_pos; exact H.
    - replace ((sqrt 3 / 2 * r - 100 * (u53 * r)) * (sqrt 3 / 2 * r - 100 * (u53 * r))) with
        ((sqrt 3 * sqrt 3) * / 4 * rr - 100 * sqrt 3 * (u53 * rr) + 10000 * u53 * (u53 * rr)) by (unfold rr; field).
      rewrite sqrt_sqrt by lra.
      assert (170 * (u53 * rr) <= 100 * sqrt 3 * (u53 * rr)) by (apply Rmult_le_compat_r; lra).
      assert (10000 * u53 * (u53 * rr) <= 1 * (u53 * rr)) by (apply Rmult_le_compat_r; lra). lra. }
  assert (u53 * V <= u53 * rr) by (apply Rmult_le_compat_l; lra).
  change (b64_leb (vsq M d) (m_radius_sq M res) = true). unfold b64_leb. rewrite (Bleb_correct 53 1024 _ _ FV FR). apply Rle_bool_true.
  eapply Rle_trans; [|exact ER]. apply Rle_trans with (V + u53 * (7 * V + 13 * rr)); [|lra]. 
  set (Y := B2R (vsq M d : b64)) in EV. change (Y <= V + u53 * (7 * V + 13 * rr)). lra.
Qed.
End Hit.
