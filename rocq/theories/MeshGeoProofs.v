(** Proofs about the mesh rasterizer: geometry in exact arithmetic. *)
From Coq Require Import ZArith Reals List Bool Lia Lra Psatz.
From Flocq Require Import Core.
From Verif Require Import Util Grid Occ Prog SdfQueryModel SdfQueryArith MeshModel MeshSpec MeshProofs.
Import ListNotations.
Local Open Scope R_scope.

Lemma Rleb_spec a b : Rleb a b = true <-> a <= b.
Proof. unfold Rleb. destruct (Rle_dec a b); split; auto; discriminate. Qed.
Lemma Rltb_spec a b : Rltb a b = true <-> a < b.
Proof. unfold Rltb. destruct (Rlt_dec a b); split; auto; discriminate. Qed.

(** ** Vectors *)

Definition cross (u v : pt) : pt :=
  (py u * pz v - pz u * py v, pz u * px v - px u * pz v, px u * py v - py u * px v).

Lemma cross_eq u v : vcross real_mesh u v = cross u v. Proof. reflexivity. Qed.
Lemma sub_eq u v : vsub real_mesh u v = minus u v. Proof. reflexivity. Qed.
Lemma dot_eq (u v : pt) : vdot real_mesh u v = dot u v.
Proof. symmetry. unfold dot. apply Rplus_assoc. Qed.

(** n . n for the normal of the triangle with edges u and v. *)
Definition area2 (u v : pt) : R := dot (cross u v) (cross u v).

Lemma dot_nonneg u : 0 <= dot u u.
Proof. unfold dot. nra. Qed.

Lemma dot_zero u : dot u u = 0 -> u = (0, 0, 0).
Proof.
  destruct u as [[x y] z]. unfold dot. cbn [px py pz fst snd]. intros H.
  assert (x = 0) by nra. assert (y = 0) by nra. assert (z = 0) by nra. now subst.
Qed.

Lemma proper_area a b c : proper a b c -> 0 < area2 (minus b a) (minus c a).
Proof.
  intros P. destruct (Rle_lt_or_eq_dec _ _ (dot_nonneg (cross (minus b a) (minus c a)))) as [H|H]; [exact H|].
  exfalso. symmetry in H. apply dot_zero in H.
  destruct a as [[ax ay] az], b as [[bx by_] bz], c as [[cx cy] cz].
  unfold cross, minus in H. cbn [px py pz fst snd] in H. injection H as H1 H2 H3.
  unfold proper in P. cbn [px py pz fst snd] in P.
  set (ux := bx - ax) in *. set (uy := by_ - ay) in *. set (uz := bz - az) in *.
  set (vx := cx - ax) in *. set (vy := cy - ay) in *. set (vz := cz - az) in *.
  clearbody ux uy uz vx vy vz.
  destruct (Req_dec (ux * ux + uy * uy + uz * uz) 0) as [U|U].
  - apply (P 1 0); [left; lra|].
    assert (ux = 0) by nra. assert (uy = 0) by nra. assert (uz = 0) by nra. subst.
    f_equal; [f_equal|]; ring.
  - apply (P (- (ux * vx + uy * vy + uz * vz)) (ux * ux + uy * uy + uz * uz)); [right; exact U|].
    f_equal; [f_equal|].
    + replace (_ + _) with ((uy * vx - ux * vy) * uy + (uz * vx - ux * vz) * uz) by ring.
      replace (uy * vx - ux * vy) with 0 by lra. replace (uz * vx - ux * vz) with 0 by lra. ring.
    + replace (_ + _) with ((ux * vy - uy * vx) * ux + (uz * vy - uy * vz) * uz) by ring.
      replace (ux * vy - uy * vx) with 0 by lra. replace (uz * vy - uy * vz) with 0 by lra. ring.
    + replace (_ + _) with ((ux * vz - uz * vx) * ux + (uy * vz - uz * vy) * uy) by ring.
      replace (ux * vz - uz * vx) with 0 by lra. replace (uy * vz - uz * vy) with 0 by lra. ring.
Qed.

(** ** Points of the triangle *)

Lemma clamp01 x : 0 <= Rmax 0 (Rmin 1 x) <= 1.
Proof. unfold Rmax, Rmin. repeat destruct Rle_dec; lra. Qed.

Lemma segment_point a b q : exists k, 0 <= k <= 1 /\
  closest_on_segment real_mesh a b q =
    (px a + (px b - px a) * k, py a + (py b - py a) * k, pz a + (pz b - pz a) * k).
Proof.
  eexists. split; [|unfold closest_on_segment, vadd, vscale, vsub, qmap, qmap2; cbn; reflexivity].
  apply clamp01.
Qed.

Lemma pt_eq (x y z x' y' z' : R) : x = x' -> y = y' -> z = z' -> (x, y, z) = (x', y', z').
Proof. now intros -> -> ->. Qed.

Lemma edge12 a b c q : in_triangle a b c (closest_on_segment real_mesh a b q).
Proof.
  destruct (segment_point a b q) as (k & K & ->). exists k, 0. repeat (split; [lra|]).
  apply pt_eq; ring.
Qed.
Lemma edge23 a b c q : in_triangle a b c (closest_on_segment real_mesh b c q).
Proof.
  destruct (segment_point b c q) as (k & K & ->). exists (1 - k), k. repeat (split; [lra|]).
  apply pt_eq; ring.
Qed.
Lemma edge31 a b c q : in_triangle a b c (closest_on_segment real_mesh c a q).
Proof.
  destruct (segment_point c a q) as (k & K & ->). exists 0, (1 - k). repeat (split; [lra|]).
  apply pt_eq; ring.
Qed.

Lemma same_side_spec a b p q :
  same_side real_mesh a b p q = true <->
  0 <= dot (cross (minus b a) (minus p a)) (cross (minus b a) (minus q a)).
Proof.
  unfold same_side. rewrite !sub_eq, !cross_eq, dot_eq. apply Rleb_spec.
Qed.

(** The three tests in terms of the edges from the first corner. *)
Lemma projects_spec a b c q :
  let u := minus b a in let v := minus c a in let r := minus q a in let n := cross u v in
  projects_inside real_mesh a b c q = true <->
  0 <= dot n (cross u r) /\ 0 <= dot n (cross (minus v u) (minus r u)) /\ 0 <= dot n (cross r v).
Proof.
  cbn zeta. unfold projects_inside. rewrite !andb_true_iff, !same_side_spec.
  destruct a as [[ax ay] az], b as [[bx by_] bz], c as [[cx cy] cz], q as [[q1 q2] q3].
  unfold dot, cross, minus. cbn [px py pz fst snd].
  assert (forall x y z x' y' z', x = x' -> y = y' -> z = z' ->
    ((0 <= x /\ 0 <= y) /\ 0 <= z <-> 0 <= x' /\ 0 <= y' /\ 0 <= z')) as E
    by (intros; subst; tauto).
  apply E; ring.
Qed.

Lemma reject_in_triangle a b c q :
  let n := cross (minus b a) (minus c a) in
  0 < dot n n -> projects_inside real_mesh a b c q = true ->
  in_triangle a b c (vadd real_mesh a (m_reject real_mesh n (minus q a))).
Proof.
  cbn zeta. intros N P. apply projects_spec in P as (P1 & P2 & P3).
  set (n := cross (minus b a) (minus c a)) in *.
  exists (dot n (cross (minus q a) (minus c a)) / dot n n),
         (dot n (cross (minus b a) (minus q a)) / dot n n).
  assert (forall x, 0 <= x -> 0 <= x / dot n n) as D.
  { intros x X. apply Rmult_le_pos; [exact X|]. left. now apply Rinv_0_lt_compat. }
  split; [now apply D|]. split; [now apply D|]. split.
  - apply Rmult_le_reg_r with (dot n n); [exact N|]. unfold Rdiv.
    rewrite Rmult_plus_distr_r, !Rmult_assoc, !Rinv_l by lra. rewrite !Rmult_1_r, Rmult_1_l.
    replace (dot n (cross (minus (minus c a) (minus b a)) (minus (minus q a) (minus b a))))
      with (dot n n - dot n (cross (minus q a) (minus c a)) - dot n (cross (minus b a) (minus q a)))
      in P2; [lra|].
    clear. subst n. destruct a as [[ax ay] az], b as [[bx by_] bz], c as [[cx cy] cz], q as [[q1 q2] q3].
    unfold dot, cross, minus. cbn [px py pz fst snd]. ring.
  - cbn [m_reject real_mesh]. unfold vadd, qmap2, blend. cbn [q_add m_query real_mesh real_query].
    clear P1 P2 P3 D.
    assert (forall x0 r nx kk s t u v D, D <> 0 ->
      D * r - nx * kk = s * u + t * v ->
      x0 + (r - nx * (kk / D)) = x0 + s / D * u + t / D * v) as E.
    { clear. intros x0 r nx kk s t u v D HD H.
      replace (r - nx * (kk / D)) with ((D * r - nx * kk) / D) by (now field). rewrite H. now field. }
    apply pt_eq; (apply E; [lra|]); clear; subst n;
      destruct a as [[ax ay] az], b as [[bx by_] bz], c as [[cx cy] cz], q as [[q1 q2] q3];
      unfold dot, cross, minus; cbn [px py pz fst snd]; ring.
Qed.

Lemma closest_in_triangle a b c q : proper a b c ->
  in_triangle a b c (closest_on_triangle real_mesh a b c (cross (minus b a) (minus c a)) q).
Proof.
  intros P. apply proper_area in P. unfold closest_on_triangle.
  destruct (projects_inside real_mesh a b c q) eqn:E.
  - exact (reject_in_triangle a b c q P E).
  - destruct (_ && _); [apply edge12|]. destruct (_ && _); [apply edge23|apply edge31].
Qed.

(** ** Distances *)

Lemma foot_projects a b c q : foot_inside a b c q -> projects_inside real_mesh a b c q = true.
Proof.
  intros (p & (s & t & S & T & ST & ->) & O1 & O2). apply projects_spec.
  destruct a as [[ax ay] az], b as [[bx by_] bz], c as [[cx cy] cz], q as [[q1 q2] q3].
  unfold dot, cross, minus, blend in *. cbn [px py pz fst snd] in *.
  set (ux := bx - ax) in *. set (uy := by_ - ay) in *. set (uz := bz - az) in *.
  set (vx := cx - ax) in *. set (vy := cy - ay) in *. set (vz := cz - az) in *.
  set (hx := q1 - (ax + s * ux + t * vx)) in *.
  set (hy := q2 - (ay + s * uy + t * vy)) in *.
  set (hz := q3 - (az + s * uz + t * vz)) in *.
  replace (q1 - ax) with (hx + s * ux + t * vx) by (unfold hx; ring).
  replace (q2 - ay) with (hy + s * uy + t * vy) by (unfold hy; ring).
  replace (q3 - az) with (hz + s * uz + t * vz) by (unfold hz; ring).
  clearbody ux uy uz vx vy vz hx hy hz. clear ax ay az bx by_ bz cx cy cz q1 q2 q3.
  set (N := (uy * vz - uz * vy) * (uy * vz - uz * vy) + (uz * vx - ux * vz) * (uz * vx - ux * vz) +
            (ux * vy - uy * vx) * (ux * vy - uy * vx)).
  assert (0 <= N) as HN by (unfold N; repeat apply Rplus_le_le_0_compat; apply (Rle_0_sqr (_ - _))).
  set (D1 := hx * ux + hy * uy + hz * uz) in *. set (D2 := hx * vx + hy * vy + hz * vz) in *.
  assert (forall e k w1 w2, e = k * N + w1 * D1 + w2 * D2 -> 0 <= k -> 0 <= e) as E.
  { intros e k w1 w2 -> K. rewrite O1, O2. pose proof (Rmult_le_pos _ _ K HN). lra. }
  split; [|split].
  - apply (E _ t (- (ux * vx + uy * vy + uz * vz)) (ux * ux + uy * uy + uz * uz)); [|exact T].
    unfold N, D1, D2. ring.
  - apply (E _ (1 - s - t) (- (vx * vx + vy * vy + vz * vz) + (ux * vx + uy * vy + uz * vz))
      (- (ux * ux + uy * uy + uz * uz) + (ux * vx + uy * vy + uz * vz))); [|lra].
    unfold N, D1, D2. ring.
  - apply (E _ s (vx * vx + vy * vy + vz * vz) (- (ux * vx + uy * vy + uz * vz))); [|exact S].
    unfold N, D1, D2. ring.
Qed.

(** The foot of the perpendicular is not farther than any point of the plane. *)
Lemma reject_nearest a b c q p :
  let n := cross (minus b a) (minus c a) in
  0 < dot n n -> in_triangle a b c p ->
  dist_sq (vadd real_mesh a (m_reject real_mesh n (minus q a))) q <= dist_sq p q.
Proof.
  cbn zeta. intros N (s & t & _ & _ & _ & ->).
  set (n := cross (minus b a) (minus c a)) in *.
  set (k := dot n (minus q a) / dot n n).
  assert (k * dot n n = dot n (minus q a)) as K by (unfold k; field; lra).
  replace (dist_sq (vadd real_mesh a (m_reject real_mesh n (minus q a))) q) with (k * k * dot n n).
  2:{ unfold dist_sq, vadd, qmap2. cbn [m_reject real_mesh q_add m_query real_query]. fold k.
      destruct a as [[ax ay] az], q as [[q1 q2] q3], n as [[nx ny] nz].
      unfold dot, minus. cbn [px py pz fst snd qx qy qz]. ring. }
  assert (dot n (minus b a) = 0) as Nu.
  { unfold n. destruct a as [[ax ay] az], b as [[bx by_] bz], c as [[cx cy] cz].
    unfold dot, cross, minus. cbn [px py pz fst snd]. ring. }
  assert (dot n (minus c a) = 0) as Nv.
  { unfold n. destruct a as [[ax ay] az], b as [[bx by_] bz], c as [[cx cy] cz].
    unfold dot, cross, minus. cbn [px py pz fst snd]. ring. }
  assert (dot n (minus q (blend a b c s t)) = dot n (minus q a)) as E.
  { clearbody n. replace (dot n (minus q (blend a b c s t)))
      with (dot n (minus q a) - s * dot n (minus b a) - t * dot n (minus c a)); [rewrite Nu, Nv; ring|].
    destruct a as [[ax ay] az], b as [[bx by_] bz], c as [[cx cy] cz], q as [[q1 q2] q3], n as [[nx ny] nz].
    unfold dot, minus, blend. cbn [px py pz fst snd]. ring. }
  set (w := minus q (blend a b c s t)) in *.
  replace (dist_sq (blend a b c s t) q) with (dot w w).
  2:{ unfold w, dist_sq. destruct (blend a b c s t) as [[bx by_] bz], q as [[q1 q2] q3].
      unfold dot, minus. cbn [px py pz fst snd]. ring. }
  rewrite <- E in K. clear E Nu Nv. clearbody w k n. clear a b c s t.
  assert (dot n w * dot n w <= dot n n * dot w w) as CS.
  { destruct n as [[nx ny] nz], w as [[wx wy] wz]. unfold dot. cbn [px py pz fst snd].
    pose proof (Rle_0_sqr (nx * wy - ny * wx)). pose proof (Rle_0_sqr (nx * wz - nz * wx)).
    pose proof (Rle_0_sqr (ny * wz - nz * wy)). unfold Rsqr in *. lra. }
  rewrite <- K in CS. apply Rmult_le_reg_l with (dot n n); [exact N|]. lra.
Qed.

(** A ball is convex. *)
Lemma triangle_in_ball a b c q p d : in_triangle a b c p ->
  dist_sq a q <= d -> dist_sq b q <= d -> dist_sq c q <= d -> dist_sq p q <= d.
Proof.
  intros (s & t & S & T & ST & ->) A B C.
  assert (dist_sq (blend a b c s t) q =
    (1 - s - t) * dist_sq a q + s * dist_sq b q + t * dist_sq c q
    - (s * t * dist_sq b c + s * (1 - s - t) * dist_sq a b + t * (1 - s - t) * dist_sq a c)) as E.
  { destruct a as [[ax ay] az], b as [[bx by_] bz], c as [[cx cy] cz], q as [[q1 q2] q3].
    unfold dist_sq, dot, minus, blend. cbn [px py pz fst snd]. ring. }
  rewrite E.
  pose proof (dot_nonneg (minus b c)). pose proof (dot_nonneg (minus a b)). pose proof (dot_nonneg (minus a c)).
  fold (dist_sq b c) in *. fold (dist_sq a b) in *. fold (dist_sq a c) in *.
  set (k := 1 - s - t) in *. assert (0 <= k) by (unfold k; lra).
  assert (0 <= s * t * dist_sq b c) by (repeat apply Rmult_le_pos; assumption).
  assert (0 <= s * k * dist_sq a b) by (repeat apply Rmult_le_pos; assumption).
  assert (0 <= t * k * dist_sq a c) by (repeat apply Rmult_le_pos; assumption).
  assert (k * dist_sq a q <= k * d) by (now apply Rmult_le_compat_l).
  assert (s * dist_sq b q <= s * d) by (now apply Rmult_le_compat_l).
  assert (t * dist_sq c q <= t * d) by (now apply Rmult_le_compat_l).
  assert (k * d + s * d + t * d = d) by (unfold k; ring). lra.
Qed.

Lemma radius_sq r : m_radius_sq real_mesh r = 3 / 4 * (r * r).
Proof.
  cbn [m_radius_sq real_mesh].
  replace ((r * (1 / 2) * sqrt 3) ^ 2) with (r * r * / 4 * (sqrt 3 * sqrt 3)) by field.
  rewrite sqrt_sqrt by lra. lra.
Qed.

Lemma voxel_hit_spec (m : mmap real_mesh) a b c i :
  voxel_hit real_mesh m a b c (cross (minus b a) (minus c a)) i = true <->
  dist_sq (closest_on_triangle real_mesh a b c (cross (minus b a) (minus c a)) (mm_centre real_mesh m i))
    (mm_centre real_mesh m i) <= 3 / 4 * (mm_res real_mesh m * mm_res real_mesh m).
Proof.
  unfold voxel_hit, vsq. rewrite sub_eq, dot_eq, radius_sq. apply Rleb_spec.
Qed.

Lemma hit_foot (m : mmap real_mesh) a b c i p : proper a b c ->
  foot_inside a b c (mm_centre real_mesh m i) -> in_triangle a b c p ->
  dist_sq p (mm_centre real_mesh m i) <= 3 / 4 * (mm_res real_mesh m * mm_res real_mesh m) ->
  voxel_hit real_mesh m a b c (cross (minus b a) (minus c a)) i = true.
Proof.
  intros P F I D. apply voxel_hit_spec. unfold closest_on_triangle.
  rewrite (foot_projects _ _ _ _ F).
  eapply Rle_trans; [|exact D].
  exact (reject_nearest a b c _ p (proper_area _ _ _ P) I).
Qed.

Lemma hit_small (m : mmap real_mesh) a b c i : proper a b c ->
  (forall v, In v [a; b; c] ->
    dist_sq v (mm_centre real_mesh m i) <= 3 / 4 * (mm_res real_mesh m * mm_res real_mesh m)) ->
  voxel_hit real_mesh m a b c (cross (minus b a) (minus c a)) i = true.
Proof.
  intros P H. apply voxel_hit_spec.
  eapply triangle_in_ball; [now apply closest_in_triangle|apply H; cbn; auto..].
Qed.

(** ** The box of indices *)

Lemma in_index_box i lo hi : In i (index_box lo hi) <->
  (ix lo <= ix i <= ix hi /\ iy lo <= iy i <= iy hi /\ iz lo <= iz i <= iz hi)%Z.
Proof.
  unfold index_box. rewrite in_flat_map. split.
  - intros (x & X & H). apply in_flat_map in H as (y & Y & H). apply in_map_iff in H as (z & <- & Z').
    apply in_zrange in X. apply in_zrange in Y. apply in_zrange in Z'. cbn. lia.
  - destruct i as [[x y] z]. cbn [ix iy iz fst snd]. intros (X & Y & Z').
    exists x. split; [apply in_zrange; lia|]. apply in_flat_map. exists y.
    split; [apply in_zrange; lia|]. apply in_map_iff. exists z. split; [reflexivity|apply in_zrange; lia].
Qed.

Lemma tmin_eq a b : tmin real_mesh a b = Rmin a b.
Proof. unfold tmin. cbn. unfold Rltb, Rmin. destruct Rlt_dec, Rle_dec; lra. Qed.
Lemma tmax_eq a b : tmax real_mesh a b = Rmax a b.
Proof. unfold tmax. cbn. unfold Rltb, Rmax. destruct Rlt_dec, Rle_dec; lra. Qed.

Lemma min3_le a b c : min3 real_mesh a b c <= a /\ min3 real_mesh a b c <= b /\ min3 real_mesh a b c <= c.
Proof.
  unfold min3. rewrite !tmin_eq. pose proof (Rmin_l (Rmin a b) c). pose proof (Rmin_r (Rmin a b) c).
  pose proof (Rmin_l a b). pose proof (Rmin_r a b). lra.
Qed.
Lemma max3_ge a b c : a <= max3 real_mesh a b c /\ b <= max3 real_mesh a b c /\ c <= max3 real_mesh a b c.
Proof.
  unfold max3. rewrite !tmax_eq. pose proof (Rmax_l (Rmax a b) c). pose proof (Rmax_r (Rmax a b) c).
  pose proof (Rmax_l a b). pose proof (Rmax_r a b). lra.
Qed.
Lemma min3_in a b c (P : R -> Prop) : P a -> P b -> P c -> P (min3 real_mesh a b c).
Proof. intros A B C. unfold min3, tmin. repeat destruct (q_ltb _ _ _); assumption. Qed.
Lemma max3_in a b c (P : R -> Prop) : P a -> P b -> P c -> P (max3 real_mesh a b c).
Proof. intros A B C. unfold max3, tmax. repeat destruct (q_ltb _ _ _); assumption. Qed.

(** Convex combinations lie between the extremes. *)
Lemma blend_between a b c s t lo hi : 0 <= s -> 0 <= t -> s + t <= 1 ->
  lo <= a <= hi -> lo <= b <= hi -> lo <= c <= hi ->
  lo <= a + s * (b - a) + t * (c - a) <= hi.
Proof.
  intros S T ST A B C.
  replace (a + s * (b - a) + t * (c - a)) with ((1 - s - t) * a + s * b + t * c) by ring.
  assert (0 <= 1 - s - t) as K by lra.
  pose proof (Rmult_le_compat_l _ _ _ K (proj1 A)). pose proof (Rmult_le_compat_l _ _ _ K (proj2 A)).
  pose proof (Rmult_le_compat_l _ _ _ S (proj1 B)). pose proof (Rmult_le_compat_l _ _ _ S (proj2 B)).
  pose proof (Rmult_le_compat_l _ _ _ T (proj1 C)). pose proof (Rmult_le_compat_l _ _ _ T (proj2 C)).
  assert ((1 - s - t) * lo + s * lo + t * lo = lo) by ring.
  assert ((1 - s - t) * hi + s * hi + t * hi = hi) by ring. lra.
Qed.

Lemma floor_between r o lo x hi : 0 < r -> lo <= x <= hi ->
  (Zfloor ((lo - o) * (1 / r)) <= Zfloor ((x - o) * (1 / r)) <= Zfloor ((hi - o) * (1 / r)))%Z.
Proof.
  intros Hr H. assert (0 < 1 / r) as K by (apply Rmult_lt_0_compat; [lra|now apply Rinv_0_lt_compat]).
  split; apply Zfloor_le; apply Rmult_le_compat_r; lra.
Qed.

Lemma point_in_box nx ny nz r o a b c p : 0 < r -> in_triangle a b c p ->
  In (mm_index real_mesh (aligned_map nx ny nz r o) p)
    (index_box (mm_index real_mesh (aligned_map nx ny nz r o) (vmin3 real_mesh a b c))
               (mm_index real_mesh (aligned_map nx ny nz r o) (vmax3 real_mesh a b c))).
Proof.
  intros Hr (s & t & S & T & ST & ->). apply in_index_box.
  unfold mm_index, vmin3, vmax3. cbn [mm_to_grid aligned_map mm_inv q_floor m_query real_mesh real_query q_mul].
  unfold minus, blend, qx, qy, qz, px, py, pz, ix, iy, iz. cbn [fst snd].
  destruct a as [[ax ay] az], b as [[bx by_] bz], c as [[cx cy] cz]. cbn [fst snd].
  assert (forall a b c, (let lo := min3 real_mesh a b c in let hi := max3 real_mesh a b c in
    lo <= a <= hi /\ lo <= b <= hi /\ lo <= c <= hi)) as E.
  { intros x y z. cbn zeta. pose proof (min3_le x y z). pose proof (max3_ge x y z). lra. }
  split; [|split]; apply floor_between; try exact Hr.
  - destruct (E ax bx cx) as (? & ? & ?). now apply blend_between.
  - destruct (E ay by_ cy) as (? & ? & ?). now apply blend_between.
  - destruct (E az bz cz) as (? & ? & ?). now apply blend_between.
Qed.

(** A point is within half a voxel of the centre of its voxel on every axis. *)
Lemma floor_near r x o : 0 < r ->
  Rabs (x - (r * (IZR (Zfloor ((x - o) * (1 / r))) + 1 / 2) + o)) <= r / 2.
Proof.
  intros Hr. pose proof (Zfloor_lb ((x - o) * (1 / r))) as L.
  pose proof (Zfloor_ub ((x - o) * (1 / r))) as U.
  set (k := IZR (Zfloor ((x - o) * (1 / r)))) in *. clearbody k.
  assert ((x - o) * (1 / r) * r = x - o) as E by (field; lra).
  apply Rmult_le_compat_r with (r := r) in L; [|lra]. apply Rmult_lt_compat_r with (r := r) in U; [|lra].
  rewrite E in *. apply Rabs_le. lra.
Qed.

Lemma sq_le x k : Rabs x <= k -> x * x <= k * k.
Proof. intros H. apply Rsqr_le_abs_1. rewrite (Rabs_right k); [exact H|]. pose proof (Rabs_pos x). lra. Qed.

Lemma point_near_centre nx ny nz r o p : 0 < r ->
  let m := aligned_map nx ny nz r o in
  dist_sq p (mm_centre real_mesh m (mm_index real_mesh m p)) <= 3 / 4 * (r * r).
Proof.
  intros Hr. cbn zeta. destruct p as [[x y] z], o as [[ox oy] oz].
  pose proof (sq_le _ _ (floor_near r x ox Hr)) as X.
  pose proof (sq_le _ _ (floor_near r y oy Hr)) as Y.
  pose proof (sq_le _ _ (floor_near r z oz Hr)) as Z'.
  unfold dist_sq, dot, minus, mm_centre, mm_index.
  cbn [mm_to_grid aligned_map mm_inv q_floor m_query real_mesh real_query q_mul mm_res mm_to_world
       q_ofZ q_add q_half].
  unfold minus, qx, qy, qz, px, py, pz, ix, iy, iz. cbn [fst snd]. lra.
Qed.

(** ** A map for a mesh *)

Definition below (l v : pt) : Prop := px l <= px v /\ py l <= py v /\ pz l <= pz v.

Lemma vmin_below a b : below (vmin real_mesh a b) a /\ below (vmin real_mesh a b) b.
Proof.
  unfold below, vmin, qmap2. unfold px, py, pz. cbn [fst snd]. rewrite !tmin_eq.
  repeat split; apply Rmin_l || apply Rmin_r.
Qed.
Lemma vmax_above a b : below a (vmax real_mesh a b) /\ below b (vmax real_mesh a b).
Proof.
  unfold below, vmax, qmap2. unfold px, py, pz. cbn [fst snd]. rewrite !tmax_eq.
  repeat split; apply Rmax_l || apply Rmax_r.
Qed.
Lemma below_trans a b c : below a b -> below b c -> below a c.
Proof. unfold below. intros (? & ? & ?) (? & ? & ?). lra. Qed.
Lemma below_refl a : below a a.
Proof. unfold below. lra. Qed.

Lemma fold_min l v : below (fold_left (vmin real_mesh) l v) v /\
  forall w, In w l -> below (fold_left (vmin real_mesh) l v) w.
Proof.
  revert v; induction l as [|u l IH]; intros v; cbn [fold_left In].
  - split; [apply below_refl|tauto].
  - destruct (IH (vmin real_mesh v u)) as (H1 & H2). destruct (vmin_below v u) as (B1 & B2).
    split; [eapply below_trans; eauto|]. intros w [<-|W]; [eapply below_trans; eauto|auto].
Qed.
Lemma fold_max l v : below v (fold_left (vmax real_mesh) l v) /\
  forall w, In w l -> below w (fold_left (vmax real_mesh) l v).
Proof.
  revert v; induction l as [|u l IH]; intros v; cbn [fold_left In].
  - split; [apply below_refl|tauto].
  - destruct (IH (vmax real_mesh v u)) as (H1 & H2). destruct (vmax_above v u) as (B1 & B2).
    split; [eapply below_trans; eauto|]. intros w [<-|W]; [eapply below_trans; eauto|auto].
Qed.

Definition voxel_count (lo hi r : R) : Z := Zceil ((hi - lo + r * 2) / r).

Lemma map_for_mesh_spec vertices r : 0 < r -> vertices <> [] ->
  exists lo hi, (forall v, In v vertices -> below lo v /\ below v hi) /\
    map_for_mesh real_mesh vertices r =
      Some (aligned_map (voxel_count (px lo) (px hi) r) (voxel_count (py lo) (py hi) r)
              (voxel_count (pz lo) (pz hi) r) r (px lo - r, py lo - r, pz lo - r)).
Proof.
  intros Hr N. destruct vertices as [|v l]; [congruence|].
  exists (fold_left (vmin real_mesh) l v), (fold_left (vmax real_mesh) l v). split.
  - destruct (fold_min l v) as (A & B). destruct (fold_max l v) as (C & D).
    intros w [<-|W]; auto.
  - unfold map_for_mesh. cbn [q_leb m_query real_mesh real_query q_zero].
    destruct (Rleb r 0) eqn:E; [apply Rleb_spec in E; lra|]. reflexivity.
Qed.

Lemma axis_bounds lo hi r x : 0 < r -> lo <= x <= hi ->
  let n := voxel_count lo hi r in let q := x - (lo - r) in
  0 < q < r * IZR n /\ (0 <= Zfloor (q * (1 / r)) < n)%Z.
Proof.
  intros Hr H. cbn zeta. unfold voxel_count.
  pose proof (Zceil_ub ((hi - lo + r * 2) / r)) as C. set (n := Zceil ((hi - lo + r * 2) / r)) in *.
  clearbody n. assert (0 < 1 / r) as K by (apply Rmult_lt_0_compat; [lra|now apply Rinv_0_lt_compat]).
  assert (hi - lo + r * 2 <= r * IZR n) as B.
  { apply Rmult_le_compat_l with (r := r) in C; [|lra].
    replace (r * ((hi - lo + r * 2) / r)) with (hi - lo + r * 2) in C by (field; lra). exact C. }
  split; [lra|].
  assert (1 <= (x - (lo - r)) * (1 / r)) as L.
  { apply Rmult_le_reg_r with r; [exact Hr|]. replace ((x - (lo - r)) * (1 / r) * r) with (x - lo + r) by (field; lra). lra. }
  assert ((x - (lo - r)) * (1 / r) <= IZR n - 1) as U.
  { apply Rmult_le_reg_r with r; [exact Hr|]. replace ((x - (lo - r)) * (1 / r) * r) with (x - lo + r) by (field; lra).
    replace ((IZR n - 1) * r) with (r * IZR n - r) by ring. lra. }
  split.
  - apply le_IZR. apply Rle_trans with 1; [lra|]. apply IZR_le. now apply Zfloor_lub.
  - apply lt_IZR. pose proof (Zfloor_lb ((x - (lo - r)) * (1 / r))). lra.
Qed.

(** The map has the voxels of the specification. *)
Lemma index_in_voxel nx ny nz r o p i : 0 < r ->
  in_voxel r o i p <-> mm_index real_mesh (aligned_map nx ny nz r o) p = i.
Proof.
  intros Hr. destruct i as [[x y] z], p as [[p1 p2] p3], o as [[o1 o2] o3].
  unfold in_voxel, mm_index. cbn [mm_to_grid aligned_map mm_inv q_floor m_query real_mesh real_query q_mul].
  unfold minus, qx, qy, qz, px, py, pz, ix, iy, iz. cbn [fst snd].
  assert (forall q k, r * IZR k <= q < r * (IZR k + 1) <-> Zfloor (q * (1 / r)) = k) as E.
  { clear - Hr. intros q k. assert (q * (1 / r) * r = q) as Q by (field; lra). split.
    - intros H. apply Zfloor_imp. rewrite plus_IZR. split.
      + apply Rmult_le_reg_r with r; [exact Hr|]. rewrite Q. lra.
      + apply Rmult_lt_reg_r with r; [exact Hr|]. rewrite Q. lra.
    - intros <-. pose proof (Zfloor_lb (q * (1 / r))) as L. pose proof (Zfloor_ub (q * (1 / r))) as U.
      apply Rmult_le_compat_r with (r := r) in L; [|lra]. apply Rmult_lt_compat_r with (r := r) in U; [|lra].
      rewrite Q in *. lra. }
  rewrite !E. split; [intros (-> & -> & ->); reflexivity|]. intros H. injection H. auto.
Qed.

Lemma centre_eq nx ny nz r o i : mm_centre real_mesh (aligned_map nx ny nz r o) i = voxel_centre r o i.
Proof.
  unfold mm_centre, voxel_centre.
  cbn [mm_to_world aligned_map mm_res q_ofZ q_add q_half q_mul m_query real_mesh real_query].
  unfold px, py, pz. cbn [fst snd]. apply pt_eq; apply Rplus_comm.
Qed.

(** The corners of a triangle of a mesh are inside the map made for it, so is the box of
    voxels that is searched. *)
Lemma box_contained lo hi r a b c i :
  let m := aligned_map (voxel_count (px lo) (px hi) r) (voxel_count (py lo) (py hi) r)
             (voxel_count (pz lo) (pz hi) r) r (px lo - r, py lo - r, pz lo - r) in
  0 < r -> (forall v, In v [a; b; c] -> below lo v /\ below v hi) ->
  In i (index_box (mm_index real_mesh m (vmin3 real_mesh a b c)) (mm_index real_mesh m (vmax3 real_mesh a b c))) ->
  inb real_mesh m i = true.
Proof.
  intros m Hr B I. apply in_index_box in I. destruct i as [[x y] z].
  destruct (B a) as ((A1 & A2 & A3) & A4 & A5 & A6); [cbn; auto|].
  destruct (B b) as ((B1 & B2 & B3) & B4 & B5 & B6); [cbn; auto|].
  destruct (B c) as ((C1 & C2 & C3) & C4 & C5 & C6); [cbn; auto|].
  destruct a as [[ax ay] az], b as [[bx by_] bz], c as [[cx cy] cz].
  unfold mm_index, vmin3, vmax3, m in I.
  cbn [mm_to_grid aligned_map mm_inv q_floor m_query real_mesh real_query q_mul] in I.
  unfold minus, qx, qy, qz in I. unfold px, py, pz in *. unfold ix, iy, iz in I. cbn [fst snd] in *.
  destruct lo as [[l1 l2] l3], hi as [[h1 h2] h3]. cbn [fst snd] in *.
  pose proof (axis_bounds l1 h1 r (min3 real_mesh ax bx cx) Hr) as X1.
  pose proof (axis_bounds l2 h2 r (min3 real_mesh ay by_ cy) Hr) as Y1.
  pose proof (axis_bounds l3 h3 r (min3 real_mesh az bz cz) Hr) as Z1.
  pose proof (axis_bounds l1 h1 r (max3 real_mesh ax bx cx) Hr) as X2.
  pose proof (axis_bounds l2 h2 r (max3 real_mesh ay by_ cy) Hr) as Y2.
  pose proof (axis_bounds l3 h3 r (max3 real_mesh az bz cz) Hr) as Z2.
  cbn zeta in *.
  destruct X1 as (_ & X1). { apply (min3_in ax bx cx (fun x => l1 <= x <= h1)); cbn beta; lra. }
  destruct Y1 as (_ & Y1). { apply (min3_in ay by_ cy (fun x => l2 <= x <= h2)); cbn beta; lra. }
  destruct Z1 as (_ & Z1). { apply (min3_in az bz cz (fun x => l3 <= x <= h3)); cbn beta; lra. }
  destruct X2 as (_ & X2). { apply (max3_in ax bx cx (fun x => l1 <= x <= h1)); cbn beta; lra. }
  destruct Y2 as (_ & Y2). { apply (max3_in ay by_ cy (fun x => l2 <= x <= h2)); cbn beta; lra. }
  destruct Z2 as (_ & Z2). { apply (max3_in az bz cz (fun x => l3 <= x <= h3)); cbn beta; lra. }
  unfold inb. apply in_bounds3_iff. unfold m. cbn [mm_nx mm_ny mm_nz aligned_map].
  unfold ix, iy, iz, px, py, pz. cbn [fst snd]. lia.
Qed.
