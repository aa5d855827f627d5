(** The points taken on the edges of a triangle, in exact arithmetic. *)
From Coq Require Import ZArith Reals List Bool Lra.
From Verif Require Import Util Grid SdfQueryModel SdfQueryArith MeshModel MeshSpec MeshProofs MeshGeoProofs.
Import ListNotations.
Local Open Scope R_scope.

(** No point of the edge is closer than the one taken. *)
Lemma segment_closest a b q k : 0 <= k <= 1 -> 0 < dot (minus b a) (minus b a) ->
  dist_sq (closest_on_segment real_mesh a b q) q <= dist_sq (blend a b a k 0) q.
Proof.
  intros K D0. unfold closest_on_segment, vsq. rewrite (sub_eq b a), (sub_eq q a), !dot_eq.
  set (D := dot (minus b a) (minus b a)) in *. set (N := dot (minus b a) (minus q a)).
  change (m_clamp real_mesh (q_div (m_query real_mesh) N D)) with (Rmax 0 (Rmin 1 (N / D))).
  assert (E : N = N / D * D) by (field; lra). set (rho := N / D) in *.
  set (c := Rmax 0 (Rmin 1 rho)).
  change (vadd real_mesh a (vscale real_mesh (minus b a) c)) with
    ((px a + px (minus b a) * c, py a + py (minus b a) * c, pz a + pz (minus b a) * c) : pt).
  assert (S : forall x, dist_sq (px a + px (minus b a) * x, py a + py (minus b a) * x, pz a + pz (minus b a) * x) q =
    dot (minus q a) (minus q a) - 2 * x * N + x * x * D).
  { intros x. unfold dist_sq, D, N, dot, minus, px, py, pz. cbn [fst snd]. ring. }
  replace (blend a b a k 0) with ((px a + px (minus b a) * k, py a + py (minus b a) * k, pz a + pz (minus b a) * k) : pt)
    by (unfold blend, minus, px, py, pz; cbn [fst snd]; apply pt_eq; ring).
  rewrite !S, E.
  assert (G : 0 <= (k - c) * (k + c - 2 * rho)).
  { unfold c, Rmax, Rmin. destruct (Rle_dec 1 rho).
    - destruct (Rle_dec 0 1); [|lra]. replace ((k - 1) * (k + 1 - 2 * rho)) with ((1 - k) * (2 * rho - k - 1)) by ring. apply Rmult_le_pos; lra.
    - destruct (Rle_dec 0 rho).
      + replace ((k - rho) * (k + rho - 2 * rho)) with (Rsqr (k - rho)) by (unfold Rsqr; ring). apply Rle_0_sqr.
      + apply Rmult_le_pos; lra. }
  assert (0 <= (k - c) * (k + c - 2 * rho) * D) by (apply Rmult_le_pos; [exact G|lra]).
  clearbody rho c D. clear - H. apply Rminus_le. match goal with |- ?x <= 0 => replace x with (- ((k - c) * (k + c - 2 * rho) * D)) by ring end. lra.
Qed.

(** The edges of a triangle that is not degenerate have a length. *)
Lemma proper_edge a b c : proper a b c -> 0 < dot (minus b a) (minus b a) /\ 0 < dot (minus c b) (minus c b) /\ 0 < dot (minus a c) (minus a c).
Proof.
  intros P.
  assert (L : forall v, v <> (0, 0, 0) -> 0 < dot v v).
  { intros v H. destruct (Rle_lt_or_eq_dec _ _ (dot_nonneg v)) as [G|G]; [exact G|]. symmetry in G. apply dot_zero in G. contradiction. }
  split; [|split]; apply L; intros H; unfold minus in H.
  - apply (P 1 0); [left; lra|]. rewrite <- H. apply pt_eq; ring.
  - apply (P (-1) 1); [left; lra|]. rewrite <- H. apply pt_eq; ring.
  - apply (P 0 (-1)); [right; lra|]. rewrite <- H. apply pt_eq; ring.
Qed.

Lemma hit_edges (m : mmap real_mesh) a b c i k1 k2 k3 : proper a b c ->
  let q := mm_centre real_mesh m i in let r := mm_res real_mesh m in
  0 <= k1 <= 1 -> 0 <= k2 <= 1 -> 0 <= k3 <= 1 ->
  dist_sq (blend a b a k1 0) q <= 3 / 4 * (r * r) -> dist_sq (blend b c b k2 0) q <= 3 / 4 * (r * r) -> dist_sq (blend c a c k3 0) q <= 3 / 4 * (r * r) ->
  voxel_hit real_mesh m a b c (cross (minus b a) (minus c a)) i = true.
Proof.
  intros P q r K1 K2 K3 H1 H2 H3. apply voxel_hit_spec. fold q r. destruct (proper_edge a b c P) as (E1 & E2 & E3).
  unfold closest_on_triangle. destruct (projects_inside real_mesh a b c q).
  - eapply Rle_trans; [|exact H1]. apply (reject_nearest a b c q _ (proper_area _ _ _ P)).
    exists k1, 0. split; [lra|split; [lra|split; [lra|]]]. unfold blend. apply pt_eq; ring.
  - destruct (_ && _); [|destruct (_ && _)]; eapply Rle_trans.
    1: exact (segment_closest a b q k1 K1 E1). 1: exact H1.
    1: exact (segment_closest b c q k2 K2 E2). 1: exact H2.
    1: exact (segment_closest c a q k3 K3 E3). exact H3.
Qed.
