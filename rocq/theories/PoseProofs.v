(** Errors of the transforms, and what they do to rays. *)
From Coq Require Import ZArith Reals List Bool Lia Lra ZifyBool.
From Flocq Require Import Core BinarySingleNaN.
From Verif Require Import Util Grid SdfSpec SdfLaws FloatModel RaycastModel RaycastProofs RayGeoSpec RayRoundSpec RayFloatModel RayFloatTop
  PoseModel VoxelRoundSpec.
Local Open Scope R_scope.

Section Arith.
Variables (A : ray_arith) (fin : rT A -> bool) (val : rT A -> R) (u eta M L : R).
Hypothesis RR : rounded_ray A fin val u eta M L.
Hypothesis Hu : 0 < u <= / 1000.
Hypothesis He : 0 <= eta.

Definition size (a b : vec A) : R :=
  Rabs (val (vx A a) * val (vx A b)) + Rabs (val (vy A a) * val (vy A b)) + Rabs (val (vz A a) * val (vz A b)).
Definition vfin (a : vec A) : Prop := fin (vx A a) = true /\ fin (vy A a) = true /\ fin (vz A a) = true.

Lemma add_small x : 0 <= x -> 0 <= u * x <= / 1000 * x.
Proof using Hu. intros H. split; [apply Rmult_le_pos; lra|apply Rmult_le_compat_r; lra]. Qed.

Lemma dot3_err a b : vfin a -> vfin b -> 4 * (size a b + eta) <= M ->
  fin (dot3 A a b) = true /\ Rabs (val (dot3 A a b) - rdot (reals A val a) (reals A val b)) <= 4 * u * size a b + 4 * eta.
Proof using RR Hu He.
  intros (A1 & A2 & A3) (B1 & B2 & B3) HM. unfold size in *. unfold dot3, rdot, reals. cbn [px py pz fst snd].
  pose proof (Rabs_pos (val (vx A a) * val (vx A b))) as P1. pose proof (Rabs_pos (val (vy A a) * val (vy A b))) as P2.
  pose proof (Rabs_pos (val (vz A a) * val (vz A b))) as P3.
  destruct (rr_mul _ _ _ _ _ _ _ RR (vx A a) (vx A b) A1 B1) as (F1 & D1 & _); [lra|].
  destruct (rr_mul _ _ _ _ _ _ _ RR (vy A a) (vy A b) A2 B2) as (F2 & D2 & _); [lra|].
  destruct (rr_mul _ _ _ _ _ _ _ RR (vz A a) (vz A b) A3 B3) as (F3 & D3 & _); [lra|].
  set (m1 := r_mul A (vx A a) (vx A b)) in *. set (m2 := r_mul A (vy A a) (vy A b)) in *. set (m3 := r_mul A (vz A a) (vz A b)) in *.
  set (q1 := val (vx A a) * val (vx A b)) in *. set (q2 := val (vy A a) * val (vy A b)) in *. set (q3 := val (vz A a) * val (vz A b)) in *.
  set (p1 := Rabs q1) in *. set (p2 := Rabs q2) in *. set (p3 := Rabs q3) in *.
  assert (Q1 : - p1 <= q1 <= p1) by (apply Rabs_le_inv, Rle_refl). assert (Q2 : - p2 <= q2 <= p2) by (apply Rabs_le_inv, Rle_refl).
  assert (Q3 : - p3 <= q3 <= p3) by (apply Rabs_le_inv, Rle_refl).
  clearbody m1 m2 m3 q1 q2 q3 p1 p2 p3. apply Rabs_le_inv in D1, D2, D3.
  pose proof (add_small p1 P1) as U1. pose proof (add_small p2 P2) as U2. pose proof (add_small p3 P3) as U3.
  pose proof (add_small eta He) as U4.
  set (x1 := u * p1) in *. set (x2 := u * p2) in *. set (x3 := u * p3) in *. set (y := u * eta) in *.
  assert (S1 : Rabs (val m1 + val m2) <= p1 + p2 + x1 + x2 + 2 * eta) by (apply Rabs_le; lra).
  destruct (rr_add _ _ _ _ _ _ _ RR m1 m2 F1 F2) as (F4 & D4 & _); [lra|].
  set (s1 := r_add A m1 m2) in *. clearbody s1.
  assert (T1 : u * Rabs (val m1 + val m2) <= u * (p1 + p2 + x1 + x2 + 2 * eta)) by (apply Rmult_le_compat_l; lra).
  replace (u * (p1 + p2 + x1 + x2 + 2 * eta)) with (x1 + x2 + u * (x1 + x2) + 2 * y) in T1 by (unfold x1, x2, y; ring).
  pose proof (add_small (x1 + x2) ltac:(lra)) as U5.
  assert (D4' : Rabs (val s1 - (val m1 + val m2)) <= x1 + x2 + / 1000 * (x1 + x2) + 2 * (/ 1000 * eta)) by lra.
  clear D4. apply Rabs_le_inv in D4'.
  assert (S2 : Rabs (val s1 + val m3) <= p1 + p2 + p3 + 3 * x1 + 3 * x2 + x3 + 4 * eta) by (apply Rabs_le; lra).
  destruct (rr_add _ _ _ _ _ _ _ RR s1 m3 F4 F3) as (F5 & D5 & _); [lra|]. split; [exact F5|].
  assert (T2 : u * Rabs (val s1 + val m3) <= u * (p1 + p2 + p3 + 3 * x1 + 3 * x2 + x3 + 4 * eta)) by (apply Rmult_le_compat_l; lra).
  replace (u * (p1 + p2 + p3 + 3 * x1 + 3 * x2 + x3 + 4 * eta)) with (x1 + x2 + x3 + u * (3 * x1 + 3 * x2 + x3) + 4 * y) in T2
    by (unfold x1, x2, x3, y; ring).
  pose proof (add_small (3 * x1 + 3 * x2 + x3) ltac:(lra)) as U6.
  assert (T2' : u * Rabs (val s1 + val m3) <= x1 + x2 + x3 + / 1000 * (3 * x1 + 3 * x2 + x3) + 4 * (/ 1000 * eta)) by lra.
  replace (4 * u * (p1 + p2 + p3)) with (4 * x1 + 4 * x2 + 4 * x3) by (unfold x1, x2, x3; ring).
  assert (D5' : Rabs (val (r_add A s1 m3) - (val s1 + val m3)) <= x1 + x2 + x3 + / 1000 * (3 * x1 + 3 * x2 + x3) + 4 * (/ 1000 * eta)) by lra.
  apply Rabs_le_inv in D5'. apply Rabs_le.
  lra.
Qed.

(** A coordinate of a transformed point; [z] and [t] are the exact numbers. *)
Lemma apply_row (b p : vec A) (tb : rT A) (z : pt) (t s al be : R) : vfin b -> vfin p -> fin tb = true ->
  0 < s -> eta <= u * s -> 300 * s <= M -> 0 <= al -> 0 <= be ->
  (forall f, f = vx A \/ f = vy A \/ f = vz A -> Rabs (val (f b)) <= 14 /\ Rabs (val (f p)) <= s) ->
  Rabs (val (vx A b) - px z) <= al * u -> Rabs (val (vy A b) - py z) <= al * u -> Rabs (val (vz A b) - pz z) <= al * u ->
  Rabs (val tb) <= 9 * s -> Rabs (val tb - t) <= be * (u * s) ->
  fin (r_add A (dot3 A b p) tb) = true /\
  Rabs (val (r_add A (dot3 A b p) tb) - (rdot z (reals A val p) + t)) <= (260 + 3 * al + be) * (u * s).
Proof using RR Hu He.
  intros Fb Fp Ft Hs Hes HM Ha Hbe Hbp Z1 Z2 Z3 Tb Dt.
  assert (Pr : forall f, f = vx A \/ f = vy A \/ f = vz A -> Rabs (val (f b) * val (f p)) <= 14 * s).
  { intros f Hf. destruct (Hbp f Hf). rewrite Rabs_mult. apply Rmult_le_compat; try apply Rabs_pos; assumption. }
  assert (S : size b p <= 42 * s).
  { unfold size. pose proof (Pr _ (or_introl eq_refl)). pose proof (Pr _ (or_intror (or_introl eq_refl))).
    pose proof (Pr _ (or_intror (or_intror eq_refl))). lra. }
  pose proof (add_small s ltac:(lra)) as US. set (y := u * s) in *.
  destruct (dot3_err b p Fb Fp) as (Fd & Dd); [lra|].
  assert (D1 : Rabs (val (dot3 A b p) - rdot (reals A val b) (reals A val p)) <= 172 * y).
  { eapply Rle_trans; [exact Dd|]. assert (4 * u * size b p <= 4 * u * (42 * s)) by (apply Rmult_le_compat_l; lra).
    replace (4 * u * (42 * s)) with (168 * y) in * by (unfold y; ring). lra. }
  assert (B1 : Rabs (rdot (reals A val b) (reals A val p)) <= 42 * s).
  { unfold rdot, reals. cbn [px py pz fst snd]. unfold size in S. eapply Rle_trans; [apply Rabs_triang|].
    eapply Rle_trans; [apply Rplus_le_compat_r, Rabs_triang|]. exact S. }
  assert (Dz : Rabs (rdot (reals A val b) (reals A val p) - rdot z (reals A val p)) <= 3 * al * y).
  { unfold rdot, reals. cbn [px py pz fst snd].
    assert (Q : forall f c, f = vx A \/ f = vy A \/ f = vz A -> Rabs (val (f b) - c) <= al * u ->
      Rabs ((val (f b) - c) * val (f p)) <= al * y).
    { intros f c Hf Hc. rewrite Rabs_mult. replace (al * y) with (al * u * s) by (unfold y; ring).
      apply Rmult_le_compat; try apply Rabs_pos; [exact Hc|]. now apply Hbp. }
    pose proof (Q _ _ (or_introl eq_refl) Z1) as Q1. pose proof (Q _ _ (or_intror (or_introl eq_refl)) Z2) as Q2.
    pose proof (Q _ _ (or_intror (or_intror eq_refl)) Z3) as Q3. apply Rabs_le_inv in Q1, Q2, Q3. apply Rabs_le. lra. }
  set (d := dot3 A b p) in *. set (r := rdot (reals A val b) (reals A val p)) in *. set (r' := rdot z (reals A val p)) in *.
  clearbody d r r'. apply Rabs_le_inv in D1, B1, Dz, Tb, Dt.
  assert (S1 : Rabs (val d + val tb) <= 52 * s) by (apply Rabs_le; lra).
  destruct (rr_add _ _ _ _ _ _ _ RR d tb Fd Ft) as (Fa & Da & _); [lra|]. split; [exact Fa|].
  assert (T : u * Rabs (val d + val tb) <= u * (52 * s)) by (apply Rmult_le_compat_l; lra).
  replace (u * (52 * s)) with (52 * y) in T by (unfold y; ring).
  replace ((260 + 3 * al + be) * y) with (260 * y + 3 * al * y + be * y) by ring.
  assert (Da' : Rabs (val (r_add A d tb) - (val d + val tb)) <= 52 * y) by lra. apply Rabs_le_inv in Da'. apply Rabs_le. lra.
Qed.

(** The product of a row with the linear part of a transform, and with its translation. *)
Lemma mul_row (a c : vec A) s : vfin a -> vfin c -> 0 < s -> eta <= u * s -> 100 * s <= M ->
  (forall f, f = vx A \/ f = vy A \/ f = vz A -> Rabs (val (f a)) <= 2 /\ Rabs (val (f c)) <= s) ->
  fin (dot3 A a c) = true /\ Rabs (val (dot3 A a c) - rdot (reals A val a) (reals A val c)) <= 28 * (u * s) /\
  Rabs (rdot (reals A val a) (reals A val c)) <= 6 * s.
Proof using RR Hu He.
  intros Fa Fc Hs Hes HM Hb.
  assert (Pr : forall f, f = vx A \/ f = vy A \/ f = vz A -> Rabs (val (f a) * val (f c)) <= 2 * s).
  { intros f Hf. destruct (Hb f Hf). rewrite Rabs_mult. apply Rmult_le_compat; try apply Rabs_pos; assumption. }
  assert (S : size a c <= 6 * s).
  { unfold size. pose proof (Pr _ (or_introl eq_refl)). pose proof (Pr _ (or_intror (or_introl eq_refl))).
    pose proof (Pr _ (or_intror (or_intror eq_refl))). lra. }
  pose proof (add_small s ltac:(lra)) as US. set (y := u * s) in *.
  destruct (dot3_err a c Fa Fc) as (Fd & Dd); [lra|]. split; [exact Fd|]. split.
  - eapply Rle_trans; [exact Dd|]. assert (4 * u * size a c <= 4 * u * (6 * s)) by (apply Rmult_le_compat_l; lra).
    replace (4 * u * (6 * s)) with (24 * y) in * by (unfold y; ring). lra.
  - unfold rdot, reals. cbn [px py pz fst snd]. unfold size in S. eapply Rle_trans; [apply Rabs_triang|].
    eapply Rle_trans; [apply Rplus_le_compat_r, Rabs_triang|]. exact S.
Qed.

Lemma mul_translation (a c : vec A) (ta : rT A) s : vfin a -> vfin c -> fin ta = true -> 0 < s -> eta <= u * s -> 100 * s <= M ->
  (forall f, f = vx A \/ f = vy A \/ f = vz A -> Rabs (val (f a)) <= 2 /\ Rabs (val (f c)) <= s) -> Rabs (val ta) <= s ->
  fin (r_add A (dot3 A a c) ta) = true /\
  Rabs (val (r_add A (dot3 A a c) ta) - (rdot (reals A val a) (reals A val c) + val ta)) <= 36 * (u * s) /\
  Rabs (rdot (reals A val a) (reals A val c) + val ta) <= 7 * s.
Proof using RR Hu He.
  intros Fa Fc Ft Hs Hes HM Hb Ht. destruct (mul_row a c s Fa Fc Hs Hes HM Hb) as (Fd & Dd & Bd).
  pose proof (add_small s ltac:(lra)) as US. set (y := u * s) in *.
  set (d := dot3 A a c) in *. set (r := rdot (reals A val a) (reals A val c)) in *. clearbody d r. apply Rabs_le_inv in Dd, Bd, Ht.
  assert (S1 : Rabs (val d + val ta) <= 8 * s) by (apply Rabs_le; lra).
  destruct (rr_add _ _ _ _ _ _ _ RR d ta Fd Ft) as (Fa' & Da & _); [lra|]. split; [exact Fa'|].
  assert (T : u * Rabs (val d + val ta) <= u * (8 * s)) by (apply Rmult_le_compat_l; lra).
  replace (u * (8 * s)) with (8 * y) in T by (unfold y; ring).
  assert (Da' : Rabs (val (r_add A d ta) - (val d + val ta)) <= 8 * y) by lra. apply Rabs_le_inv in Da'.
  split; apply Rabs_le; lra.
Qed.

(** Row [a] and translation [ta] of a product with [X]. *)
Definition exact_row (a : pt) (X : pose A) : pt :=
  (rdot a (val (vx A (po_x A X)), val (vx A (po_y A X)), val (vx A (po_z A X))),
   rdot a (val (vy A (po_x A X)), val (vy A (po_y A X)), val (vy A (po_z A X))),
   rdot a (val (vz A (po_x A X)), val (vz A (po_y A X)), val (vz A (po_z A X)))).

Lemma exact_row_place a ta (X : pose A) p :
  rdot a (placed A val X p) + ta = rdot (exact_row a X) p + (rdot a (reals A val (po_t A X)) + ta).
Proof. unfold placed, exact_row, rdot, reals. cbn [px py pz fst snd]. ring. Qed.

Lemma product_row (a : vec A) (ta : rT A) (X : pose A) s : vfin a -> fin ta = true -> Rabs (val ta) <= s ->
  (forall f, f = vx A \/ f = vy A \/ f = vz A -> Rabs (val (f a)) <= 2) -> tame A fin val s X ->
  0 < s -> eta <= u -> eta <= u * s -> 200 <= M -> 100 * s <= M ->
  let r := row_times A a X in
  let t := r_add A (dot3 A a (po_t A X)) ta in
  let z := exact_row (reals A val a) X in
  let t0 := rdot (reals A val a) (reals A val (po_t A X)) + val ta in
  vfin r /\ fin t = true /\
  (Rabs (val (vx A r) - px z) <= 56 * u /\ Rabs (val (vy A r) - py z) <= 56 * u /\ Rabs (val (vz A r) - pz z) <= 56 * u) /\
  (Rabs (px z) <= 12 /\ Rabs (py z) <= 12 /\ Rabs (pz z) <= 12) /\
  Rabs (val t - t0) <= 36 * (u * s) /\ Rabs t0 <= 7 * s.
Proof using RR Hu He.
  intros Fa Ft Ht Ha HX Hs E1 E2 M1 M2.
  assert (TX : forall f, f = vx A \/ f = vy A \/ f = vz A ->
    let c := (f (po_x A X), f (po_y A X), f (po_z A X)) in
    fin (dot3 A a c) = true /\ Rabs (val (dot3 A a c) - rdot (reals A val a) (reals A val c)) <= 56 * u /\
    Rabs (rdot (reals A val a) (reals A val c)) <= 12).
  { intros f Hf. cbv zeta. destruct (HX f Hf) as (HL & _).
    destruct (HL _ (or_introl eq_refl)) as (X1 & X2). destruct (HL _ (or_intror (or_introl eq_refl))) as (Y1 & Y2).
    destruct (HL _ (or_intror (or_intror eq_refl))) as (Z1 & Z2).
    destruct (mul_row a (f (po_x A X), f (po_y A X), f (po_z A X)) 2 Fa) as (F & D & B); try lra.
    - split; [exact X1|]. split; [exact Y1|exact Z1].
    - intros h Hh. split; [now apply Ha|]. destruct Hh as [ -> |[ -> | -> ]]; [exact X2|exact Y2|exact Z2].
    - split; [exact F|]. split; [eapply Rle_trans; [exact D|]; lra|]. eapply Rle_trans; [exact B|]. lra. }
  destruct (TX _ (or_introl eq_refl)) as (X1 & X2 & X3). destruct (TX _ (or_intror (or_introl eq_refl))) as (Y1 & Y2 & Y3).
  destruct (TX _ (or_intror (or_intror eq_refl))) as (Z1 & Z2 & Z3).
  destruct (mul_translation a (po_t A X) ta s Fa) as (F & D & B); try assumption.
  { split; [|split]; apply HX; auto. }
  { intros f Hf. split; [now apply Ha|]. now apply HX. }
  cbv zeta. split; [split; [exact X1|split; [exact Y1|exact Z1]]|]. split; [exact F|]. split; [split; [exact X2|split; [exact Y2|exact Z2]]|].
  split; [split; [exact X3|split; [exact Y3|exact Z3]]|]. split; [exact D|exact B].
Qed.
End Arith.

(** ** Rays between nearby points *)

Definition close (d : R) (p q : pt) : Prop := Rabs (px p - px q) <= d /\ Rabs (py p - py q) <= d /\ Rabs (pz p - pz q) <= d.

Lemma dist_close d o o' p p' : close d o' o -> close d p' p -> dist o' p' <= dist o p + 4 * d.
Proof.
  intros (X1 & Y1 & Z1) (X2 & Y2 & Z2). unfold dist.
  set (a := px p - px o). set (b := py p - py o). set (c := pz p - pz o).
  set (x := (px p' - px p) - (px o' - px o)). set (y := (py p' - py p) - (py o' - py o)). set (z := (pz p' - pz p) - (pz o' - pz o)).
  replace (px p' - px o') with (a + x) by (unfold a, x; ring). replace (py p' - py o') with (b + y) by (unfold b, y; ring).
  replace (pz p' - pz o') with (c + z) by (unfold c, z; ring).
  eapply Rle_trans; [apply triangle3|]. apply Rplus_le_compat_l.
  assert (D : 0 <= d) by (eapply Rle_trans; [apply Rabs_pos|exact X1]).
  assert (Hx : Rabs x <= 2 * d) by (apply Rabs_le_inv in X1, X2; apply Rabs_le; unfold x; lra).
  assert (Hy : Rabs y <= 2 * d) by (apply Rabs_le_inv in Y1, Y2; apply Rabs_le; unfold y; lra).
  assert (Hz : Rabs z <= 2 * d) by (apply Rabs_le_inv in Z1, Z2; apply Rabs_le; unfold z; lra).
  clearbody x y z. assert (Q : forall h, Rabs h <= 2 * d -> h * h <= 4 * (d * d)).
  { intros h Hh. replace (h * h) with (Rabs h * Rabs h) by (rewrite <- Rabs_mult; apply Rabs_pos_eq, Rle_0_sqr).
    replace (4 * (d * d)) with (2 * d * (2 * d)) by ring. apply Rmult_le_compat; try apply Rabs_pos; exact Hh. }
  replace (4 * d) with (sqrt (4 * d * (4 * d))) by (apply sqrt_square; lra).
  apply sqrt_le_1_alt. pose proof (Q x Hx). pose proof (Q y Hy). pose proof (Q z Hz).
  pose proof (Rle_0_sqr d) as Sd. unfold Rsqr in Sd. replace (4 * d * (4 * d)) with (16 * (d * d)) by ring. lra.
Qed.

Lemma close_sym d p q : close d p q -> close d q p.
Proof. intros (X & Y & Z). unfold close. now rewrite (Rabs_minus_sym (px q)), (Rabs_minus_sym (py q)), (Rabs_minus_sym (pz q)). Qed.

Lemma along_close d o o' p p' t : 0 <= t <= 1 -> close d o' o -> close d p' p -> close d (along o' p' t) (along o p t).
Proof.
  intros Ht (X1 & Y1 & Z1) (X2 & Y2 & Z2). unfold along, close. cbn [px py pz fst snd].
  assert (Q : forall a a' b b', Rabs (a' - a) <= d -> Rabs (b' - b) <= d -> Rabs (a' + t * (b' - a') - (a + t * (b - a))) <= d).
  { intros a a' b b' Ha Hb. replace (a' + t * (b' - a') - (a + t * (b - a))) with ((1 - t) * (a' - a) + t * (b' - b)) by ring.
    eapply Rle_trans; [apply Rabs_triang|]. rewrite !Rabs_mult, (Rabs_pos_eq (1 - t)), (Rabs_pos_eq t) by lra.
    assert ((1 - t) * Rabs (a' - a) <= (1 - t) * d) by (apply Rmult_le_compat_l; lra).
    assert (t * Rabs (b' - b) <= t * d) by (apply Rmult_le_compat_l; lra). lra. }
  split; [|split]; apply Q; assumption.
Qed.

Lemma near_close v e d e' i p q : close d p q -> e + d <= e' -> near_voxel v e i p -> near_voxel v e' i q.
Proof.
  intros (X & Y & Z) H (X' & Y' & Z'). apply Rabs_le_inv in X, Y, Z. split; [|split]; lra.
Qed.

Lemma deep_close v e d e' i p q : close d p q -> e + d <= e' -> deep_in_voxel v e' i q -> deep_in_voxel v e i p.
Proof.
  intros (X & Y & Z) H (X' & Y' & Z'). apply Rabs_le_inv in X, Y, Z. split; [|split]; lra.
Qed.

Lemma up_to_le range x y : up_to range y -> x <= y -> up_to range x.
Proof. destruct range; cbn [up_to]; [lra|easy]. Qed.

(** Ranges that agree up to [rho] for lengths of at most [D]. *)
Definition ranges (rho D : R) (range range' : option R) : Prop :=
  forall x, x <= D -> (up_to range' x -> up_to range (x - rho)) /\ (up_to range (x + rho) -> up_to range' x).

(** The counters of a computed segment from [o'] to [p'] are those of the segment from [o]
    to [p]. *)
Lemma segment_moves v e0 e w0 w d rho D nx ny nz o o' p p' bs s whole range range' pts :
  marks_segment v e0 s whole nx ny nz o' p' bs -> cut_near (w0 * dist o' p') range' (dist o' p') s whole ->
  close d o' o -> close d p' p -> e0 + d <= e -> 0 <= w0 -> 0 <= rho -> 2 * (w0 * dist o' p') + 4 * d + rho <= w ->
  dist o' p' + 2 * (w0 * dist o' p') <= D -> ranges rho D range range' ->
  let S := mkSighting o pts range in
  forall i, in_box nx ny nz i ->
    (forall b, In (i, b) bs -> may_pass v e w S i p) /\ (In (i, true) bs -> may_end v e w S i p) /\
    (surely_passes v e w S i p -> exists b, In (i, b) bs) /\ (surely_ends v e w S i p -> In (i, true) bs).
Proof.
  intros (K & W & M1 & M2 & M3 & M4 & _) C Co Cp Ee Hw0 Hrho Hw HD HR S i Hi.
  assert (D1 := dist_close d o o' p p' Co Cp). assert (D2 := dist_close d o' o p' p (close_sym _ _ _ Co) (close_sym _ _ _ Cp)).
  assert (P1 : 0 <= dist o p) by apply sqrt_pos. assert (P2 : 0 <= dist o' p') by apply sqrt_pos.
  assert (Dp : 0 <= d) by (destruct Co as (X & _); eapply Rle_trans; [apply Rabs_pos|exact X]).
  set (l := dist o p) in *. set (l' := dist o' p') in *.
  assert (WL : 0 <= w0 * l') by (apply Rmult_le_pos; lra). set (x := w0 * l') in *.
  assert (Sc : forall t, 0 <= t <= 1 -> Rabs (t * l - t * l') <= 4 * d).
  { intros t Ht. replace (t * l - t * l') with (t * (l - l')) by ring. rewrite Rabs_mult, (Rabs_pos_eq t) by lra.
    assert (B : Rabs (l - l') <= 4 * d) by (apply Rabs_le; lra).
    assert (t * Rabs (l - l') <= 1 * Rabs (l - l')) by (apply Rmult_le_compat_r; [apply Rabs_pos|lra]). lra. }
  assert (Tl : forall t, 0 <= t <= 1 -> t * l' <= l').
  { intros t Ht. assert (t * l' <= 1 * l') by (apply Rmult_le_compat_r; lra). lra. }
  cbn [may_pass may_end surely_passes surely_ends] in *. split; [|split; [|split]].
  - intros b H. destruct (M1 i b H) as (_ & t & Ht & Nr). exists t. split; [lra|]. cbn [S sg_range sg_origin]. fold l. split.
    + assert (U : up_to range' (t * l' - x)).
      { destruct range' as [m|]; cbn [up_to cut_near] in *; [|easy]. destruct C as (C & _). apply Rabs_le_inv in C.
        assert (t * l' <= s * l') by (apply Rmult_le_compat_r; lra). pose proof (Rmin_r l' m). lra. }
      apply HR in U; [|specialize (Tl t ltac:(lra)); lra]. apply (up_to_le _ _ _ U). specialize (Sc t ltac:(lra)). apply Rabs_le_inv in Sc. lra.
    + apply near_close with (1 := along_close d o o' p p' t ltac:(lra) Co Cp) (2 := Ee) (3 := Nr).
  - intros H. destruct (M2 i H) as (Wt & Nr). split; cbn [S sg_range sg_origin]; fold l.
    + assert (U : up_to range' (l' - x)).
      { destruct range' as [m|]; cbn [up_to cut_near] in *; [|easy]. destruct C as (_ & _ & C). subst whole.
        apply Rnot_lt_le. intros Q. assert (true = false) by (apply C; lra). easy. }
      apply HR in U; [|lra]. apply (up_to_le _ _ _ U). lra.
    + apply near_close with (1 := Cp) (2 := Ee) (3 := Nr).
  - intros (t & Ht & U & De). cbn [S sg_range sg_origin] in *. fold l in U.
    assert (U' : up_to range' (t * l' + 2 * x)).
    { apply HR; [specialize (Tl t Ht); lra|]. apply (up_to_le _ _ _ U). specialize (Sc t Ht). apply Rabs_le_inv in Sc. lra. }
    assert (De' : deep_in_voxel v e0 i (along o' p' t)) by (apply deep_close with (1 := along_close d o o' p p' t Ht Co Cp) (2 := Ee) (3 := De)).
    assert (Hk : exists t1, 0 <= t1 <= s /\ deep_in_voxel v e0 i (along o' p' t1)).
    { destruct (Req_dec l' 0) as [Z|Z].
      - apply dist_zero in Z. exists 0. split; [lra|]. rewrite <- Z in *. revert De'.
        unfold along. now replace (px o' + t * (px o' - px o')) with (px o' + 0 * (px o' - px o')) by ring;
          replace (py o' + t * (py o' - py o')) with (py o' + 0 * (py o' - py o')) by ring;
          replace (pz o' + t * (pz o' - pz o')) with (pz o' + 0 * (pz o' - pz o')) by ring.
      - exists t. split; [|exact De']. split; [lra|].
        destruct range' as [m|]; cbn [up_to cut_near] in *; [|destruct C; lra].
        destruct C as (C1 & C2 & _). destruct (Rle_lt_dec (l' + x) m) as [Q|Q]; [rewrite (W (C2 Q)); lra|].
        apply Rmult_le_reg_r with l'; [lra|]. apply Rabs_le_inv in C1.
        assert (m - x <= Rmin l' m) by (apply Rmin_glb; lra). lra. }
    destruct Hk as (t1 & T1 & De1). exact (M3 t1 i T1 Hi De1).
  - intros (U & De). cbn [S sg_range sg_origin] in *. fold l in U.
    apply M4; [|exact Hi|apply deep_close with (1 := Cp) (2 := Ee) (3 := De)].
    assert (U' : up_to range' (l' + x)) by (apply HR; [lra|]; apply (up_to_le _ _ _ U); lra).
    destruct range' as [m|]; cbn [up_to cut_near] in *; [|apply C]. destruct C as (_ & C & _). now apply C.
Qed.

Lemma inside_weaken v a b nx ny nz p q d : inside v a nx ny nz q -> close d p q -> b + d <= a -> inside v b nx ny nz p.
Proof.
  intros (X & Y & Z) (X' & Y' & Z') H. apply Rabs_le_inv in X', Y', Z'. split; [|split]; lra.
Qed.

(** Its end in particular. *)
Lemma segment_ends v e0 e w0 w d rho D nx ny nz o o' p p' bs s whole range range' pts :
  marks_segment v e0 s whole nx ny nz o' p' bs -> cut_near (w0 * dist o' p') range' (dist o' p') s whole ->
  close d o' o -> close d p' p -> e0 + d <= e -> 0 <= w0 -> 0 <= rho -> 2 * (w0 * dist o' p') + 4 * d + rho <= w ->
  dist o' p' + 2 * (w0 * dist o' p') <= D -> ranges rho D range range' ->
  surely_shown v e w nx ny nz (mkSighting o pts range) p -> exists i, In (i, true) bs.
Proof.
  intros (_ & _ & _ & _ & _ & _ & M) C Co Cp Ee Hw0 Hrho Hw HD HR (U & I). cbn [sg_range sg_origin] in U.
  assert (D1 := dist_close d o o' p p' Co Cp). assert (P2 : 0 <= dist o' p') by apply sqrt_pos.
  assert (WL : 0 <= w0 * dist o' p') by (apply Rmult_le_pos; lra).
  apply M; [|exact (inside_weaken v e e0 nx ny nz p' p d I Cp Ee)].
  assert (D2 := dist_close d o' o p' p (close_sym _ _ _ Co) (close_sym _ _ _ Cp)).
  assert (Dp : 0 <= d) by (destruct Co as (X & _); eapply Rle_trans; [apply Rabs_pos|exact X]).
  assert (U' : up_to range' (dist o' p' + w0 * dist o' p')) by (apply HR; [lra|]; apply (up_to_le _ _ _ U); lra).
  destruct range' as [m|]; cbn [up_to cut_near] in *; [|apply C]. destruct C as (_ & C & _). now apply C.
Qed.
