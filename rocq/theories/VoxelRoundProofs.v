(** Voxelization with poses, rounding and ranges. *)
From Coq Require Import ZArith Reals List Bool Lia Lra ZifyBool.
From Flocq Require Import Core BinarySingleNaN Relative.
From Verif Require Import Util Grid SdfSpec FloatModel Occ RaycastModel RaycastSpec RaycastProofs RayGeoSpec RayRoundSpec RayRoundProofs
  RayFloatModel RayFloatProofs RayFloatTop FilterModel FilterSpec FilterProofs PoseModel VoxelRoundSpec VoxelShowProofs PoseProofs.
From Verif Require SdfDoubleSpec.
Import ListNotations.
Local Open Scope R_scope.

(** ** Differences of floating point numbers *)

Lemma float_gap prec emax (Hp : Prec_gt_0 prec) (a b : binary_float prec emax) x : (1 <= prec)%Z ->
  0 < x -> x <= Rabs (B2R a) -> not_tiny (x * bpow radix2 (- prec - 1)) (B2R b - B2R a).
Proof.
  intros Hprec Hx Ha. unfold not_tiny.
  assert (W : x * bpow radix2 (- prec - 1) <= x * / 2).
  { apply Rmult_le_compat_l; [lra|]. change (/ 2) with (bpow radix2 (-1)). apply bpow_le. clear - Hprec. lia. }
  destruct (Rlt_le_dec (Rabs (B2R b)) (Rabs (B2R a) / 2)) as [Q|Q].
  { right. eapply Rle_trans; [exact W|]. unfold Rabs in *. destruct (Rcase_abs (B2R a)), (Rcase_abs (B2R b)), (Rcase_abs (B2R b - B2R a)); lra. }
  assert (Za : B2R a <> 0) by (intros E; rewrite E, Rabs_R0 in Ha; lra).
  pose proof (generic_format_B2R prec emax a) as Ga. pose proof (generic_format_B2R prec emax b) as Gb.
  set (k := (mag radix2 (B2R a) - 1 - prec)%Z).
  assert (Hl : bpow radix2 (mag radix2 (B2R a) - 1) <= Rabs (B2R a)) by (apply bpow_mag_le; exact Za).
  assert (Mb : (mag radix2 (B2R a) - 1 <= mag radix2 (B2R b))%Z).
  { apply mag_ge_bpow. apply Rle_trans with (2 := Q). apply Rmult_le_reg_r with 2; [lra|].
    replace (Rabs (B2R a) / 2 * 2) with (Rabs (B2R a)) by field. eapply Rle_trans; [|exact Hl].
    change 2 with (bpow radix2 1). rewrite <- bpow_plus. apply bpow_le. clear. lia. }
  assert (R : forall c : R, (mag radix2 (B2R a) - 1 <= mag radix2 c)%Z -> generic_format radix2 (SpecFloat.fexp prec emax) c ->
    exists m, c = IZR m * bpow radix2 k).
  { intros c Mc Gc. rewrite Gc. unfold F2R. cbn [Fnum Fexp]. set (m := Ztrunc _). clearbody m.
    assert (Q' : (k <= cexp radix2 (SpecFloat.fexp prec emax) c)%Z).
    { unfold cexp, SpecFloat.fexp, k. clear - Mc. lia. }
    exists (m * radix2 ^ (cexp radix2 (SpecFloat.fexp prec emax) c - k))%Z. rewrite mult_IZR, IZR_Zpower by (clear - Q'; lia).
    rewrite Rmult_assoc, <- bpow_plus. f_equal. f_equal. clear. lia. }
  destruct (R (B2R a) ltac:(clear; lia) Ga) as (ma & Ea). destruct (R _ Mb Gb) as (mb & Eb).
  replace (B2R b - B2R a) with (IZR (mb - ma) * bpow radix2 k) by (clearbody k; clear - Ea Eb; rewrite minus_IZR; lra).
  destruct (Z.eq_dec (mb - ma) 0) as [Z|Z]; [left; rewrite Z; ring|right].
  rewrite Rabs_mult, (Rabs_pos_eq (bpow radix2 k)) by apply bpow_ge_0.
  assert (1 <= Rabs (IZR (mb - ma))) by (rewrite <- abs_IZR; apply IZR_le; clear - Z; lia).
  apply Rle_trans with (1 * bpow radix2 k); [|apply Rmult_le_compat_r; [apply bpow_ge_0|assumption]]. rewrite Rmult_1_l.
  assert (Hu : Rabs (B2R a) < bpow radix2 (mag radix2 (B2R a))) by apply bpow_mag_gt.
  replace k with (mag radix2 (B2R a) + (- prec - 1))%Z by (unfold k; clear; lia). rewrite bpow_plus.
  apply Rmult_le_compat_r; [apply bpow_ge_0|]. lra.
Qed.

(** ** One cloud, for any arithmetic *)

Lemma dist_within b p q : 0 <= b -> within b p -> within b q -> dist p q <= 4 * b.
Proof.
  intros Hb (X1 & Y1 & Z1) (X2 & Y2 & Z2). unfold dist.
  set (x := px q - px p). set (y := py q - py p). set (z := pz q - pz p).
  assert (Hx : Rabs x <= 2 * b) by (apply Rabs_le_inv in X1, X2; apply Rabs_le; unfold x; lra).
  assert (Hy : Rabs y <= 2 * b) by (apply Rabs_le_inv in Y1, Y2; apply Rabs_le; unfold y; lra).
  assert (Hz : Rabs z <= 2 * b) by (apply Rabs_le_inv in Z1, Z2; apply Rabs_le; unfold z; lra).
  clearbody x y z. assert (Q : forall h, Rabs h <= 2 * b -> h * h <= 4 * (b * b)).
  { intros h Hh. replace (h * h) with (Rabs h * Rabs h) by (rewrite <- Rabs_mult; apply Rabs_pos_eq, Rle_0_sqr).
    replace (4 * (b * b)) with (2 * b * (2 * b)) by ring. apply Rmult_le_compat; try apply Rabs_pos; exact Hh. }
  replace (4 * b) with (sqrt (4 * b * (4 * b))) by (apply sqrt_square; lra).
  apply sqrt_le_1_alt. pose proof (Q x Hx). pose proof (Q y Hy). pose proof (Q z Hz).
  pose proof (Rle_0_sqr b) as Sd. unfold Rsqr in Sd. replace (4 * b * (4 * b)) with (16 * (b * b)) by ring. lra.
Qed.

(** Error of coordinates and lengths, for coordinates of at most [s]. *)
Definition slack (u s : R) : R := 16384 * (u * s).

Lemma cloud_moves (A : ray_arith) (val : rT A -> R) (g : ray_grid A) (c : cloud A) o pts range range' v e0 u s :
  0 < s -> 0 < u <= / 1000 ->
  (forall p bs, In p (c_points A c) -> vfinite A p = true ->
   cast_point A g (c_max_range A c) (c_origin A c) (voxel_of A g (c_origin A c)) (c_to_grid A c p) = Some bs ->
   let o' := reals A val (c_origin A c) in
   let p' := reals A val (c_to_grid A c p) in
   exists k whole, marks_segment v e0 k whole (rg_nx A g) (rg_ny A g) (rg_nz A g) o' p' bs /\
     cut_near (20 * u * dist o' p') range' (dist o' p') k whole) ->
  close (500 * (u * s)) (reals A val (c_origin A c)) o -> within (44 * s) (reals A val (c_origin A c)) ->
  zlen pts = zlen (c_points A c) ->
  (forall k p, zget (c_points A c) k = Some p ->
   if vfinite A p then exists q, zget pts k = Some (Some q) /\ close (500 * (u * s)) (reals A val (c_to_grid A c p)) q /\
     within (44 * s) (reals A val (c_to_grid A c p))
   else zget pts k = Some None) ->
  ranges (256 * (u * s)) (200 * s) range range' ->
  cloud_matches A g v (e0 + 500 * (u * s)) (slack u s) c (mkSighting o pts range).
Proof.
  intros Hs Hu HC Ho Wo HL HP HR. split; [exact HL|]. intros k p E. unfold point_matches.
  specialize (HP k p E). destruct (vfinite A p) eqn:F; [|exact HP]. destruct HP as (q & Eq & Cq & Wq).
  destruct (cast_point_some A g (c_max_range A c) (c_origin A c) (voxel_of A g (c_origin A c)) (c_to_grid A c p)) as (bs & Eb & _).
  exists q, bs. split; [exact Eq|]. split; [exact Eb|].
  destruct (HC p bs (zget_In _ _ _ E) F Eb) as (t & whole & M & C).
  assert (D := dist_within (44 * s) _ _ ltac:(lra) Wo Wq). assert (D0 : 0 <= dist (reals A val (c_origin A c)) (reals A val (c_to_grid A c p))) by apply sqrt_pos.
  set (l := dist (reals A val (c_origin A c)) (reals A val (c_to_grid A c p))) in *.
  assert (U1 : u * s <= / 1000 * s) by (apply Rmult_le_compat_r; lra). assert (U0 : 0 < u * s) by (apply Rmult_lt_0_compat; lra).
  assert (D1 : 20 * u * l <= 20 * u * (176 * s)) by (apply Rmult_le_compat_l; lra).
  replace (20 * u * (176 * s)) with (3520 * (u * s)) in D1 by ring.
  unfold slack. split.
  { refine (segment_ends v e0 _ (20 * u) _ (500 * (u * s)) (256 * (u * s)) (200 * s) _ _ _ o _ q _ bs t whole range range' pts M C Ho Cq
      (Rle_refl _) _ _ _ _ HR); try fold l; lra. }
  intros i Hi.
  refine (segment_moves v e0 _ (20 * u) _ (500 * (u * s)) (256 * (u * s)) (200 * s) _ _ _ o _ q _ bs t whole range range' pts M C Ho Cq
    (Rle_refl _) _ _ _ _ HR i _); try fold l; try lra.
  now apply in_grid_box.
Qed.

(** The sensor is in the grid, also for its computed location. *)
Lemma voxel_in (A : ray_arith) fin val u eta M L K lam (g : ray_grid A) N (o : vec A) v : setup A fin val u eta M L K lam g N ->
  Rabs (val (rg_voxel A g) - v) <= u * v -> 0 < v ->
  (forall f, f = vx A \/ f = vy A \/ f = vz A -> fin (f o) = true /\ Rabs (val (f o)) <= K * val (rg_voxel A g)) ->
  inside v (20 * IZR N * u * v) (rg_nx A g) (rg_ny A g) (rg_nz A g) (reals A val o) ->
  in_grid A g (voxel_of A g o) = true.
Proof.
  intros (RR & HV & HI & HN & Hu & Hs & He & HK & HM & Hnx & Hny & Hnz) Dv Hv Ho (X & Y & Z).
  apply in_grid_box. unfold reals in X, Y, Z. cbn [px py pz fst snd] in X, Y, Z.
  assert (NU := nu_small u N HN Hu Hs). assert (N1 : 1 <= IZR N) by (apply IZR_le; exact HN).
  assert (NV : 0 < IZR N * u * v) by (apply Rmult_lt_0_compat; [apply Rmult_lt_0_compat; lra|exact Hv]).
  assert (VV : val (rg_voxel A g) <= 2 * v).
  { apply Rabs_le_inv in Dv. assert (u * v <= / 129 * v) by (apply Rmult_le_compat_r; lra). lra. }
  assert (Q : forall f n, f = vx A \/ f = vy A \/ f = vz A -> (n <= N)%Z ->
    20 * IZR N * u * v <= val (f o) <= IZR n * v - 20 * IZR N * u * v ->
    (0 <= r_floor A (r_mul A (f o) (rg_inv A g)) < n)%Z).
  { intros f n Hf Hn H. destruct (Ho f Hf) as (F & B).
    assert (Kp : 0 <= K * val (rg_voxel A g)) by (apply Rmult_le_pos; lra).
    assert (Hi := index_near A fin val u eta M L K lam RR g N HV HI HN Hu Hs He HK HM (f o) F ltac:(lra)).
    set (i := r_floor A (r_mul A (f o) (rg_inv A g))) in *. clearbody i.
    assert (EV : 8 * IZR N * u * val (rg_voxel A g) <= 16 * (IZR N * u * v)).
    { apply Rle_trans with (8 * IZR N * u * (2 * v)); [apply Rmult_le_compat_l; [|lra]|lra].
      replace (8 * IZR N * u) with (8 * (IZR N * u)) by ring. lra. }
    assert (n0 : (0 < n)%Z).
    { apply lt_IZR. apply Rmult_lt_reg_r with v; [exact Hv|]. lra. }
    split; apply Znot_gt_le || apply Z.nle_gt; intros G.
    - destruct (Hi 0%Z ltac:(clear - HN; lia)) as (_ & K2). specialize (K2 ltac:(clear - G; lia)). lra.
    - destruct (Hi n ltac:(clear - n0 Hn; lia)) as (K1 & _). specialize (K1 G).
      assert (IZR n * (v - val (rg_voxel A g)) <= IZR N * (u * v)).
      { apply Rle_trans with (IZR n * (u * v)).
        - apply Rmult_le_compat_l; [apply IZR_le; clear - n0; lia|]. apply Rabs_le_inv in Dv. lra.
        - apply Rmult_le_compat_r; [|now apply IZR_le]. left. apply Rmult_lt_0_compat; lra. }
      lra. }
  unfold voxel_of, in_box. cbn.
  split; [apply (Q (vx A)); auto|]. split; [apply (Q (vy A)); auto|apply (Q (vz A)); auto].
Qed.

(** ** Poses *)

(** The rows of the composed transform, exactly. *)
Lemma placed_rows (A : ray_arith) (val : rT A -> R) (G X : pose A) q :
  placed A val G (placed A val X q) =
  (rdot (exact_row A val (reals A val (po_x A G)) X) q + (rdot (reals A val (po_x A G)) (reals A val (po_t A X)) + val (vx A (po_t A G))),
   rdot (exact_row A val (reals A val (po_y A G)) X) q + (rdot (reals A val (po_y A G)) (reals A val (po_t A X)) + val (vy A (po_t A G))),
   rdot (exact_row A val (reals A val (po_z A G)) X) q + (rdot (reals A val (po_z A G)) (reals A val (po_t A X)) + val (vz A (po_t A G)))).
Proof. rewrite <- !exact_row_place. reflexivity. Qed.

Lemma row_bound z q s b : 0 < s -> Rabs (px z) <= 12 /\ Rabs (py z) <= 12 /\ Rabs (pz z) <= 12 -> within s q -> Rabs b <= 7 * s ->
  Rabs (rdot z q + b) <= 43 * s.
Proof.
  intros Hs (X & Y & Z) (X' & Y' & Z') Hb. unfold rdot.
  assert (P : forall x y, Rabs x <= 12 -> Rabs y <= s -> Rabs (x * y) <= 12 * s).
  { intros x y Hx Hy. rewrite Rabs_mult. apply Rmult_le_compat; try apply Rabs_pos; assumption. }
  pose proof (P _ _ X X') as P1. pose proof (P _ _ Y Y') as P2. pose proof (P _ _ Z Z') as P3.
  apply Rabs_le_inv in P1, P2, P3, Hb. apply Rabs_le. lra.
Qed.

Lemma close_bound u s x y : 0 < s -> 0 < u <= / 1000 -> Rabs (x - y) <= 464 * (u * s) -> Rabs y <= 43 * s ->
  Rabs (x - y) <= 500 * (u * s) /\ Rabs x <= 44 * s.
Proof.
  intros Hs Hu D B. assert (0 < u * s) by (apply Rmult_lt_0_compat; lra). assert (u * s <= / 1000 * s) by (apply Rmult_le_compat_r; lra).
  split; [lra|]. apply Rabs_le_inv in D, B. apply Rabs_le. lra.
Qed.

(** A transformed point: finite, close to where it belongs, and not far away. *)
Definition well_placed (A : ray_arith) (fin : rT A -> bool) (val : rT A -> R) (u s : R) (p : vec A) (q : pt) : Prop :=
  vfin A fin p /\ close (500 * (u * s)) (reals A val p) q /\ within (44 * s) (reals A val p).

Lemma well_placed_intro A fin val u s (p : vec A) q : 0 < s -> 0 < u <= / 1000 ->
  (fin (vx A p) = true /\ Rabs (val (vx A p) - px q) <= 464 * (u * s) /\ Rabs (px q) <= 43 * s) ->
  (fin (vy A p) = true /\ Rabs (val (vy A p) - py q) <= 464 * (u * s) /\ Rabs (py q) <= 43 * s) ->
  (fin (vz A p) = true /\ Rabs (val (vz A p) - pz q) <= 464 * (u * s) /\ Rabs (pz q) <= 43 * s) ->
  well_placed A fin val u s p q.
Proof.
  intros Hs Hu (X1 & X2 & X3) (Y1 & Y2 & Y3) (Z1 & Z2 & Z3).
  destruct (close_bound u s _ _ Hs Hu X2 X3). destruct (close_bound u s _ _ Hs Hu Y2 Y3). destruct (close_bound u s _ _ Hs Hu Z2 Z3).
  split; [easy|]. split; (split; [|split]); assumption.
Qed.

Section Product.
Variables (A : ray_arith) (fin : rT A -> bool) (val : rT A -> R) (u eta M L s : R).
Hypothesis RR : rounded_ray A fin val u eta M L.
Hypothesis Hu : 0 < u <= / 1000.
Hypothesis He : 0 <= eta.
Hypothesis He1 : eta <= u.
Hypothesis He2 : eta <= u * s.
Hypothesis HM1 : 200 <= M.
Hypothesis HM2 : 300 * s <= M.
Hypothesis Hs : 0 < s.
Variables G X : pose A.
Hypothesis HG : tame A fin val s G.
Hypothesis HX : tame A fin val s X.

Lemma tame_row a f : a = po_x A G /\ f = vx A \/ a = po_y A G /\ f = vy A \/ a = po_z A G /\ f = vz A ->
  let r := row_times A a X in
  let t := r_add A (dot3 A a (po_t A X)) (f (po_t A G)) in
  let z := exact_row A val (reals A val a) X in
  let t0 := rdot (reals A val a) (reals A val (po_t A X)) + val (f (po_t A G)) in
  vfin A fin r /\ fin t = true /\
  (Rabs (val (vx A r) - px z) <= 56 * u /\ Rabs (val (vy A r) - py z) <= 56 * u /\ Rabs (val (vz A r) - pz z) <= 56 * u) /\
  (Rabs (px z) <= 12 /\ Rabs (py z) <= 12 /\ Rabs (pz z) <= 12) /\
  Rabs (val t - t0) <= 36 * (u * s) /\ Rabs t0 <= 7 * s.
Proof.
  intros Haf.
  assert (Ha : a = po_x A G \/ a = po_y A G \/ a = po_z A G) by (clear - Haf; tauto).
  assert (Hf : f = vx A \/ f = vy A \/ f = vz A) by (clear - Haf; tauto).
  apply (product_row A fin val u eta M L RR Hu He a (f (po_t A G)) X s); try assumption; try lra.
  - split; [|split]; apply HG; auto.
  - now apply HG.
  - now apply HG.
  - intros h Hh. now apply HG.
Qed.

Lemma product_places p q : vfin A fin p -> reals A val p = q -> within s q ->
  well_placed A fin val u s (pose_apply A (pose_mul A G X) p) (placed A val G (placed A val X q)).
Proof.
  intros Fp Eq Wq. rewrite placed_rows.
  assert (Q : forall a f, a = po_x A G /\ f = vx A \/ a = po_y A G /\ f = vy A \/ a = po_z A G /\ f = vz A ->
    let y := r_add A (dot3 A (row_times A a X) p) (r_add A (dot3 A a (po_t A X)) (f (po_t A G))) in
    let y0 := rdot (exact_row A val (reals A val a) X) q + (rdot (reals A val a) (reals A val (po_t A X)) + val (f (po_t A G))) in
    fin y = true /\ Rabs (val y - y0) <= 464 * (u * s) /\ Rabs y0 <= 43 * s).
  { intros a f Haf. destruct (tame_row a f Haf) as (F1 & F2 & (X1 & Y1 & Z1) & B & D & T). cbv zeta.
    assert (Us : 0 < u * s) by (apply Rmult_lt_0_compat; lra). assert (Us' : u * s <= / 1000 * s) by (apply Rmult_le_compat_r; lra).
    destruct (apply_row A fin val u eta M L RR Hu He (row_times A a X) p (r_add A (dot3 A a (po_t A X)) (f (po_t A G)))
      (exact_row A val (reals A val a) X) (rdot (reals A val a) (reals A val (po_t A X)) + val (f (po_t A G))) s 56 36) as (F & E);
      try assumption; try lra.
    - intros h Hh. split; [|rewrite <- Eq in Wq; destruct Wq as (W1 & W2 & W3); unfold reals in W1, W2, W3; cbn [px py pz fst snd] in W1, W2, W3;
        destruct Hh as [ -> |[ -> | -> ]]; assumption].
      destruct B as (B1 & B2 & B3). apply Rabs_le_inv in X1, Y1, Z1, B1, B2, B3.
      destruct Hh as [ -> |[ -> | -> ]]; apply Rabs_le; lra.
    - apply Rabs_le_inv in D, T. apply Rabs_le. lra.
    - rewrite Eq in E. split; [exact F|]. split; [eapply Rle_trans; [exact E|]; lra|]. now apply row_bound. }
  destruct (Q _ _ (or_introl (conj eq_refl eq_refl))) as (X1 & X2 & X3).
  destruct (Q _ _ (or_intror (or_introl (conj eq_refl eq_refl)))) as (Y1 & Y2 & Y3).
  destruct (Q _ _ (or_intror (or_intror (conj eq_refl eq_refl)))) as (Z1 & Z2 & Z3).
  apply well_placed_intro; auto; split; auto.
Qed.
End Product.

(** ** Lists *)

Lemma zget_map' {X Y} (f : X -> Y) l k x : zget l k = Some x -> zget (map f l) k = Some (f x).
Proof. intros E. now rewrite zget_map, E. Qed.

Lemma bpow_mult_le a b c : (a + b <= c)%Z -> bpow radix2 a * bpow radix2 b <= bpow radix2 c.
Proof. intros Q. rewrite <- bpow_plus. now apply bpow_le. Qed.


(** ** A cloud in either precision *)

Section Cloud.
Variables (A : ray_arith) (fin : rT A -> bool) (val : rT A -> R) (u eta M L K lam : R) (g : ray_grid A) (N : Z).
Variables (v s e0 x mu : R) (c : cloud A) (to_grid : pt -> pt) (range range' : option R).
Hypothesis ST : setup A fin val u eta M L K lam g N.
Hypothesis Fin : forall a, r_finite A a = true -> fin a = true.
Hypothesis Dv : Rabs (val (rg_voxel A g) - v) <= u * v.
Hypothesis Hv : 0 < v.
Hypothesis Hs : 0 < s.
Hypothesis Hu : 0 < u <= / 1000.
Hypothesis HK : 44 * s <= K * val (rg_voxel A g).
Hypothesis He0 : 20 * IZR N * u * v <= e0.
Hypothesis Hmu : 0 < mu.
Hypothesis Gap : forall a b, mu <= Rabs (val a) -> not_tiny x (val b - val a).
Hypothesis Marks : forall o p bs, good_ray A fin val (44 * s) x o p -> in_grid A g (voxel_of A g o) = true ->
  cast_point A g (c_max_range A c) o (voxel_of A g o) p = Some bs ->
  exists k whole, marks_segment v e0 k whole (rg_nx A g) (rg_ny A g) (rg_nz A g) (reals A val o) (reals A val p) bs /\
    cut_near (20 * u * dist (reals A val o) (reals A val p)) range' (dist (reals A val o) (reals A val p)) k whole.
Hypothesis Place : forall p, vfin A fin p -> within s (reals A val p) -> well_placed A fin val u s (c_to_grid A c p) (to_grid (reals A val p)).
Hypothesis Near : forall p, In p (c_points A c) -> vfinite A p = true -> within s (reals A val p).
Hypothesis Rng : ranges (256 * (u * s)) (200 * s) range range'.
Hypothesis Ins : inside v (e0 + 500 * (u * s) + mu) (rg_nx A g) (rg_ny A g) (rg_nz A g) (to_grid (0, 0, 0)).

Lemma placed_cloud_matches : cloud_matches A g v (e0 + 500 * (u * s)) (slack u s) c
  (mkSighting (to_grid (0, 0, 0)) (map (fun p => if vfinite A p then Some (to_grid (reals A val p)) else None) (c_points A c)) range).
Proof using All.
  destruct (ST) as (RR & _).
  assert (US : 0 < u * s) by (apply Rmult_lt_0_compat; lra).
  assert (E0 : 0 < e0).
  { destruct (ST) as (_ & _ & _ & HN & _). assert (1 <= IZR N) by (apply IZR_le; exact HN). eapply Rlt_le_trans; [|exact He0]. repeat apply Rmult_lt_0_compat; lra. }
  assert (Po : well_placed A fin val u s (c_origin A c) (to_grid (0, 0, 0))).
  { destruct (rr_zero _ _ _ _ _ _ _ RR) as (F & E).
    assert (Q : reals A val (r_zero A, r_zero A, r_zero A) = (0, 0, 0)) by (unfold reals; cbn [vx vy vz fst snd]; now rewrite E).
    unfold c_origin. rewrite <- Q. apply Place; [split; [exact F|split; exact F]|]. rewrite Q. unfold within. cbn [px py pz fst snd]. rewrite Rabs_R0. lra. }
  destruct Po as (Fo & Co & Wo).
  assert (Ino := inside_weaken _ _ (e0 + mu) _ _ _ _ _ _ Ins Co ltac:(lra)).
  assert (Low : forall f, f = vx A \/ f = vy A \/ f = vz A -> mu <= Rabs (val (f (c_origin A c)))).
  { destruct Ino as (X & Y & Z). unfold reals in X, Y, Z. cbn [px py pz fst snd] in X, Y, Z. intros f Hf.
    eapply Rle_trans; [|apply RRle_abs]. destruct Hf as [ -> |[ -> | -> ]]; lra. }
  assert (Comp : forall q b, within b (reals A val q) -> forall f, f = vx A \/ f = vy A \/ f = vz A -> Rabs (val (f q)) <= b).
  { intros q b (X & Y & Z) f Hf. unfold reals in X, Y, Z. cbn [px py pz fst snd] in X, Y, Z. destruct Hf as [ -> |[ -> | -> ]]; assumption. }
  assert (Fcomp : forall q, vfin A fin q -> forall f, f = vx A \/ f = vy A \/ f = vz A -> fin (f q) = true).
  { intros q (X & Y & Z) f Hf. destruct Hf as [ -> |[ -> | -> ]]; assumption. }
  assert (Hg : in_grid A g (voxel_of A g (c_origin A c)) = true).
  { apply (voxel_in A fin val _ _ _ _ _ _ g N _ v ST Dv Hv).
    - intros f Hf. split; [now apply Fcomp|]. eapply Rle_trans; [now apply (Comp _ _ Wo)|exact HK].
    - destruct Ino as (X & Y & Z). split; [|split]; lra. }
  assert (Finite : forall p, vfinite A p = true -> vfin A fin p).
  { intros p F. unfold vfinite in F. apply andb_true_iff in F. destruct F as (F & F3). apply andb_true_iff in F. destruct F. split; [|split]; now apply Fin. }
  apply (cloud_moves A val g c _ _ _ range' v e0 u s Hs Hu).
  - intros p bs Hp F E. cbv zeta.
    destruct (Place p (Finite p F) (Near p Hp F)) as (Fp & Cp & Wp). apply Marks; [|exact Hg|exact E].
    intros f Hf. split; [now apply Fcomp|]. split; [now apply Fcomp|]. split; [now apply (Comp _ _ Wo)|].
    split; [now apply (Comp _ _ Wp)|]. apply Gap. now apply Low.
  - exact Co.
  - exact Wo.
  - unfold zlen. now rewrite map_length.
  - intros k p E. pose proof (zget_In _ _ _ E) as Hp. rewrite (zget_map' _ _ _ _ E).
    destruct (vfinite A p) eqn:F; [|reflexivity].
    destruct (Place p (Finite p F) (Near p Hp F)) as (Fp & Cp & Wp). eexists. split; [reflexivity|]. split; [exact Cp|exact Wp].
  - exact Rng.
Qed.
End Cloud.

(** ** The CPU *)

Lemma cpu_place fl fl32 s gw (c : wrapped fl fl32) u eta M L :
  rounded_ray (double_ray fl) is_finite B2R u eta M L -> 0 < u <= / 1000 -> 0 <= eta -> eta <= u -> eta <= u * s -> 200 <= M -> 300 * s <= M -> 0 < s ->
  tame (double_ray fl) is_finite B2R s gw -> tame (double_ray fl) is_finite B2R s (w_pose fl fl32 c) ->
  forall p, vfin (double_ray fl) is_finite p -> within s (reals (double_ray fl) B2R p) ->
  well_placed (double_ray fl) is_finite B2R u s (c_to_grid (double_ray fl) (cpu_cloud fl fl32 gw c) p)
    (placed (double_ray fl) B2R gw (placed (double_ray fl) B2R (w_pose fl fl32 c) (reals (double_ray fl) B2R p))).
Proof.
  intros RR Hu E0 E1 E2 M1 M2 Hs HG HX p Fp Wp.
  exact (product_places (double_ray fl) is_finite B2R u eta M L s RR Hu E0 E1 E2 M1 M2 Hs gw (w_pose fl fl32 c) HG HX p _ Fp eq_refl Wp).
Qed.

Lemma double_numbers r s : bpow radix2 (-300) <= r <= bpow radix2 300 -> bpow radix2 (-300) <= s <= bpow radix2 44 * r ->
  (0 < bpow radix2 (-53) <= / 1000) /\ bpow radix2 (-1074) <= bpow radix2 (-53) /\ bpow radix2 (-1074) <= bpow radix2 (-53) * s /\
  200 <= bpow radix2 1022 /\ 300 * s <= bpow radix2 1022 /\ 0 < s /\ 0 < r /\ 44 * s <= bpow radix2 50 * r.
Proof.
  intros Hr Hs. assert (Sp : 0 < s) by (pose proof (bpow_gt_0 radix2 (-300)); lra). assert (Rp : 0 < r) by (pose proof (bpow_gt_0 radix2 (-300)); lra).
  split; [split; [apply bpow_gt_0|cbn; lra]|]. split; [apply bpow_le; clear; lia|]. split.
  { apply Rle_trans with (bpow radix2 (-53) * bpow radix2 (-300)); [rewrite <- bpow_plus; apply bpow_le; clear; lia|].
    apply Rmult_le_compat_l; [apply bpow_ge_0|apply Hs]. }
  split; [apply Rle_trans with (bpow radix2 8); [cbn; lra|apply bpow_le; clear; lia]|].
  split.
  { apply Rle_trans with (bpow radix2 9 * s); [apply Rmult_le_compat_r; [lra|]; cbn; lra|].
    apply Rle_trans with (bpow radix2 9 * (bpow radix2 44 * bpow radix2 300)).
    + apply Rmult_le_compat_l; [apply bpow_ge_0|]. eapply Rle_trans; [apply Hs|]. apply Rmult_le_compat_l; [apply bpow_ge_0|apply Hr].
    + rewrite <- !bpow_plus. apply bpow_le; clear; lia. }
  split; [exact Sp|]. split; [exact Rp|].
  apply Rle_trans with (bpow radix2 6 * s); [apply Rmult_le_compat_r; [lra|]; cbn; lra|].
  replace (bpow radix2 50) with (bpow radix2 6 * bpow radix2 44) by (rewrite <- bpow_plus; reflexivity).
  rewrite Rmult_assoc. apply Rmult_le_compat_l; [apply bpow_ge_0|apply Hs].
Qed.

Lemma error_covers n u v k : 1 <= n -> 0 < u -> 0 < v -> 128 <= k -> 20 * n * u * v <= n * (n + k) * u * v.
Proof.
  intros Hn Hu Hv Hk. apply Rmult_le_compat_r; [lra|]. apply Rmult_le_compat_r; [lra|]. rewrite (Rmult_comm 20). apply Rmult_le_compat_l; lra.
Qed.

Lemma good_ray_le A fin val b b' x x' o p : good_ray A fin val b x o p -> b <= b' -> x' <= x -> good_ray A fin val b' x' o p.
Proof.
  intros H Hb Hx f Hf. destruct (H f Hf) as (A1 & A2 & A3 & A4 & A5). repeat split; try assumption; try lra.
  destruct A5 as [E|E]; [left; exact E|right; lra].
Qed.

Lemma same_range rho D range : 0 <= rho -> ranges rho D range range.
Proof. intros Hr x Hx. destruct range; cbn [up_to]; [|easy]. split; lra. Qed.

Lemma cpu_range fl (m : b64) : good_range m -> stands_for (double_ray fl) is_finite B2R m (range_of m).
Proof.
  intros [ -> |(F & B)]; [reflexivity|]. unfold range_of. rewrite F. cbn [stands_for]. split; [exact F|]. split; [apply B|reflexivity].
Qed.

Lemma cpu_cloud_matches fl fl32 nx ny nz N (res : b64) s gw (c : wrapped fl fl32) :
  SdfDoubleSpec.floors fl -> is_finite res = true -> bpow radix2 (-300) <= B2R res <= bpow radix2 300 ->
  (1 <= N)%Z -> (N * (N + 128) <= 2 ^ 53)%Z -> (nx <= N)%Z -> (ny <= N)%Z -> (nz <= N)%Z ->
  bpow radix2 (-300) <= s <= bpow radix2 44 * B2R res ->
  let A := double_ray fl in
  let e := IZR N * (IZR N + 128) * bpow radix2 (-53) * B2R res + 500 * (bpow radix2 (-53) * s) in
  tame A is_finite B2R s gw -> tame A is_finite B2R s (w_pose fl fl32 c) ->
  (forall p, In p (w_double fl fl32 c) -> vfinite A p = true -> within s (reals A B2R p)) ->
  good_range (w_range fl fl32 c) ->
  inside (B2R res) (e + bpow radix2 (-30) * B2R res) nx ny nz (placed A B2R gw (placed A B2R (w_pose fl fl32 c) (0, 0, 0))) ->
  cloud_matches A (double_grid fl nx ny nz res) (B2R res) e (slack (bpow radix2 (-53)) s) (cpu_cloud fl fl32 gw c)
    (sighting_of A A B2R B2R gw (w_pose fl fl32 c) (w_double fl fl32 c) (range_of (w_range fl fl32 c))).
Proof.
  intros Hfl Fr Hr HN HNs Nx Ny Nz Hs A e HG HX HP Hm Hin. subst A e.
  pose proof (double_setup fl nx ny nz N res Hfl Fr Hr HN HNs Nx Ny Nz) as ST. pose proof (proj1 ST) as RR.
  destruct (double_numbers (B2R res) s Hr Hs) as (Hu & E1 & E2 & M1 & M2 & Sp & Rp & KK).
  pose proof (cpu_place fl fl32 s gw c _ _ _ _ RR Hu (bpow_ge_0 _ _) E1 E2 M1 M2 Sp HG HX) as Place.
  set (e0 := IZR N * (IZR N + 128) * bpow radix2 (-53) * B2R res) in *. set (x := bpow radix2 (-90) * B2R res). set (g := double_grid fl nx ny nz res).
  assert (Marks : forall (o p : vec (double_ray fl)) bs, good_ray (double_ray fl) is_finite B2R (bpow radix2 50 * B2R res) x o p ->
    in_grid (double_ray fl) g (voxel_of (double_ray fl) g o) = true ->
    cast_point (double_ray fl) g (w_range fl fl32 c) o (voxel_of (double_ray fl) g o) p = Some bs ->
    exists k whole, marks_segment (B2R res) e0 k whole nx ny nz (reals (double_ray fl) B2R o) (reals (double_ray fl) B2R p) bs /\
      cut_near (20 * bpow radix2 (-53) * dist (reals (double_ray fl) B2R o) (reals (double_ray fl) B2R p)) (range_of (w_range fl fl32 c))
        (dist (reals (double_ray fl) B2R o) (reals (double_ray fl) B2R p)) k whole).
  { intros o p bs H Hg E. exact (marks_double fl nx ny nz N res (w_range fl fl32 c) (range_of (w_range fl fl32 c)) o p bs Hfl Fr Hr HN HNs Nx Ny Nz H
      (cpu_range fl _ Hm) Hg E). }
  assert (Gap : forall a b : b64, bpow radix2 (-30) * B2R res <= Rabs (B2R a) -> not_tiny x (B2R b - B2R a)).
  { unfold x. intros a b H. pose proof (float_gap 53 1024 prec53 a b _ ltac:(clear; lia) (Rmult_lt_0_compat _ _ (bpow_gt_0 radix2 (-30)) Rp) H) as T.
    destruct T as [T|T]; [left; exact T|right]. eapply Rle_trans; [|exact T].
    replace (bpow radix2 (-30) * B2R res * bpow radix2 (- (53) - 1)) with (bpow radix2 (-30) * bpow radix2 (- (53) - 1) * B2R res) by ring.
    apply Rmult_le_compat_r; [lra|]. rewrite <- bpow_plus. apply bpow_le; clear; lia. }
  pose proof (error_covers (IZR N) (bpow radix2 (-53)) (B2R res) 128 (IZR_le _ _ HN) (proj1 Hu) Rp ltac:(lra)) as Cov.
  pose proof (same_range (256 * (bpow radix2 (-53) * s)) (200 * s) (range_of (w_range fl fl32 c))) as Rg.
  change (20 * IZR N * bpow radix2 (-53) * B2R res <= e0) in Cov.
  set (mu := bpow radix2 (-30) * B2R res) in *.
  pose proof (Rmult_lt_0_compat _ _ (bpow_gt_0 radix2 (-30)) Rp) as Mu.
  change (0 < mu) in Mu. clearbody e0 x mu. subst g.
  revert ST RR Hu E1 E2 M1 M2 Place Marks Cov Rg KK Hin. 
  generalize (bpow radix2 (-53)) (bpow radix2 (-1074)) (bpow radix2 1022) (bpow radix2 62) (bpow radix2 50) (bpow radix2 (-91)).
  clear - Fr HP Gap Mu Rp Sp. intros u eta M L K lam ST RR Hu E1 E2 M1 M2 Place Marks Cov Rg KK Hin.
  apply (placed_cloud_matches (double_ray fl) is_finite B2R u eta M L K lam (double_grid fl nx ny nz res) N (B2R res) s e0 x mu (cpu_cloud fl fl32 gw c)
    (fun q => placed (double_ray fl) B2R gw (placed (double_ray fl) B2R (w_pose fl fl32 c) q)) (range_of (w_range fl fl32 c)) (range_of (w_range fl fl32 c)) ST).
  - intros a H. exact H.
  - cbn [double_grid rg_voxel]. rewrite Rminus_diag_eq, Rabs_R0 by reflexivity. left. apply Rmult_lt_0_compat; [apply Hu|exact Rp].
  - exact Rp.
  - exact Sp.
  - exact Hu.
  - exact KK.
  - exact Cov.
  - exact Mu.
  - exact Gap.
  - intros o p bs G. apply Marks. exact (good_ray_le _ _ _ _ _ _ _ _ _ G KK (Rle_refl _)).
  - exact Place.
  - exact HP.
  - apply Rg. assert (0 < u * s) by (apply Rmult_lt_0_compat; [apply Hu|exact Sp]). lra.
  - exact Hin.
Qed.

(** ** The devices *)

Lemma cast_err (y : b64) : is_finite y = true -> Rabs (B2R y) <= bpow radix2 127 ->
  is_finite (b32_of_b64 y) = true /\
  Rabs (B2R (b32_of_b64 y) - B2R y) <= bpow radix2 (-24) * Rabs (B2R y) + bpow radix2 (-149).
Proof.
  intros F B. destruct (cast_val y F B) as (F' & E). split; [exact F'|]. rewrite E.
  destruct (error_N_FLT radix2 (-149) 24 ltac:(clear; lia) (fun z => negb (Z.even z)) (B2R y)) as (d & h & Hd & Hh & _ & Ev).
  change (round radix2 (SpecFloat.fexp 24 128) ZnearestE (B2R y)) with (round radix2 (FLT_exp (-149) 24) (Znearest (fun z => negb (Z.even z))) (B2R y)).
  rewrite Ev. replace (B2R y * (1 + d) + h - B2R y) with (d * B2R y + h) by ring. eapply Rle_trans; [apply Rabs_triang|].
  rewrite Rabs_mult.
  assert (Hd' : Rabs d <= bpow radix2 (-24)).
  { eapply Rle_trans; [exact Hd|]. replace (/ 2) with (bpow radix2 (-1)) by (cbn; lra). rewrite <- bpow_plus. apply bpow_le; clear; lia. }
  assert (Hh' : Rabs h <= bpow radix2 (-149)).
  { eapply Rle_trans; [exact Hh|]. pose proof (bpow_gt_0 radix2 (-149)). lra. }
  apply Rplus_le_compat; [|exact Hh']. apply Rmult_le_compat_r; [apply Rabs_pos|exact Hd'].
Qed.

Section Device.
Variables (fl : b64 -> Z) (fl32 : b32 -> Z) (u eta M L u' eta' M' L' s : R).
Notation A := (double_ray fl).
Notation B := (float32_ray fl32).
Hypothesis RA : rounded_ray A is_finite B2R u eta M L.
Hypothesis RB : rounded_ray B is_finite B2R u' eta' M' L'.
Hypothesis Hu : 0 < u <= / 1000.
Hypothesis Hu' : 0 < u' <= / 1000.
Hypothesis Huu : 100 * u <= u'.
Hypothesis He : 0 <= eta.
Hypothesis He1 : eta <= u.
Hypothesis He2 : eta <= u * s.
Hypothesis HM1 : 200 <= M.
Hypothesis HM2 : 300 * s <= M.
Hypothesis He' : 0 <= eta'.
Hypothesis He1' : eta' <= u'.
Hypothesis He2' : eta' <= u' * s.
Hypothesis HM2' : 300 * s <= M'.
Hypothesis Hs : 0 < s.
Hypothesis Cast : forall y : b64, is_finite y = true -> Rabs (B2R y) <= 300 + 300 * s ->
  is_finite (b32_of_b64 y) = true /\ Rabs (B2R (b32_of_b64 y) - B2R y) <= u' * Rabs (B2R y) + eta'.
Variables G X : pose A.
Hypothesis HG : tame A is_finite B2R s G.
Hypothesis HX : tame A is_finite B2R s X.

Lemma cast_entry (y : b64) z : is_finite y = true -> Rabs (B2R y - z) <= 56 * u -> Rabs z <= 12 ->
  is_finite (b32_of_b64 y) = true /\ Rabs (B2R (b32_of_b64 y) - z) <= 16 * u' /\ Rabs (B2R (b32_of_b64 y)) <= 14.
Proof using Hs Hu Hu' Huu He' He1' Cast.
  intros F D Z. assert (Y : Rabs (B2R y) <= 13) by (apply Rabs_le_inv in D, Z; apply Rabs_le; lra).
  destruct (Cast y F ltac:(lra)) as (F' & E). split; [exact F'|].
  assert (E' : Rabs (B2R (b32_of_b64 y) - B2R y) <= 14 * u').
  { eapply Rle_trans; [exact E|]. assert (u' * Rabs (B2R y) <= u' * 13) by (apply Rmult_le_compat_l; lra). lra. }
  clear E. apply Rabs_le_inv in E', D, Z. split; apply Rabs_le; lra.
Qed.

Lemma cast_shift (y : b64) z : is_finite y = true -> Rabs (B2R y - z) <= 36 * (u * s) -> Rabs z <= 7 * s ->
  is_finite (b32_of_b64 y) = true /\ Rabs (B2R (b32_of_b64 y) - z) <= 10 * (u' * s) /\ Rabs (B2R (b32_of_b64 y)) <= 9 * s.
Proof using Hs Hu Hu' Huu He' He2' Cast.
  intros F D Z. assert (U1 : u * s <= / 1000 * s) by (apply Rmult_le_compat_r; lra). assert (U2 : u' * s <= / 1000 * s) by (apply Rmult_le_compat_r; lra).
  assert (U3 : 100 * (u * s) <= u' * s) by (rewrite <- Rmult_assoc; apply Rmult_le_compat_r; lra).
  assert (U4 : 0 < u * s) by (apply Rmult_lt_0_compat; lra).
  assert (Y : Rabs (B2R y) <= 8 * s) by (apply Rabs_le_inv in D, Z; apply Rabs_le; lra).
  destruct (Cast y F ltac:(lra)) as (F' & E). split; [exact F'|].
  assert (E' : Rabs (B2R (b32_of_b64 y) - B2R y) <= 9 * (u' * s)).
  { eapply Rle_trans; [exact E|]. assert (u' * Rabs (B2R y) <= u' * (8 * s)) by (apply Rmult_le_compat_l; lra). lra. }
  clear E. apply Rabs_le_inv in E', D, Z. split; apply Rabs_le; lra.
Qed.

Lemma device_places (p : vec B) q : vfin B is_finite p -> reals B B2R p = q -> within s q ->
  well_placed B is_finite B2R u' s (pose_apply B (cast_pose fl fl32 (pose_mul A G X)) p) (placed A B2R G (placed A B2R X q)).
Proof using All.
  intros Fp Eq Wq. rewrite placed_rows.
  assert (Q : forall a f, a = po_x A G /\ f = vx A \/ a = po_y A G /\ f = vy A \/ a = po_z A G /\ f = vz A ->
    let y := r_add B (dot3 B (cast_vec fl fl32 (row_times A a X)) p) (b32_of_b64 (r_add A (dot3 A a (po_t A X)) (f (po_t A G)))) in
    let y0 := rdot (exact_row A B2R (reals A B2R a) X) q + (rdot (reals A B2R a) (reals A B2R (po_t A X)) + B2R (f (po_t A G))) in
    is_finite y = true /\ Rabs (B2R y - y0) <= 464 * (u' * s) /\ Rabs y0 <= 43 * s).
  { intros a f Haf. cbv zeta.
    destruct (tame_row A is_finite B2R u eta M L s RA Hu He He1 He2 HM1 HM2 Hs G X HG HX a f Haf) as (F1 & F2 & (X1 & Y1 & Z1) & (B1 & B2 & B3) & D & T).
    destruct F1 as (Fx & Fy & Fz).
    destruct (cast_entry _ _ Fx X1 B1) as (Gx & Dx & Sx). destruct (cast_entry _ _ Fy Y1 B2) as (Gy & Dy & Sy).
    destruct (cast_entry _ _ Fz Z1 B3) as (Gz & Dz & Sz). destruct (cast_shift _ _ F2 D T) as (Gt & Dt & St).
    destruct (apply_row B is_finite B2R u' eta' M' L' RB Hu' He' (cast_vec fl fl32 (row_times A a X)) p
      (b32_of_b64 (r_add A (dot3 A a (po_t A X)) (f (po_t A G))))
      (exact_row A B2R (reals A B2R a) X) (rdot (reals A B2R a) (reals A B2R (po_t A X)) + B2R (f (po_t A G))) s 16 10) as (F & E);
      try assumption; try lra.
    - split; [exact Gx|split; [exact Gy|exact Gz]].
    - intros h Hh. rewrite <- Eq in Wq. destruct Wq as (W1 & W2 & W3).
      destruct Hh as [ -> |[ -> | -> ]]; split; assumption.
    - rewrite Eq in E. split; [exact F|].
      assert (Us : 0 < u' * s) by (apply Rmult_lt_0_compat; lra).
      split; [eapply Rle_trans; [exact E|]; lra|]. apply row_bound; [exact Hs|exact (conj B1 (conj B2 B3))|exact Wq|exact T]. }
  pose proof (Q _ _ (or_introl (conj eq_refl eq_refl))) as QX.
  pose proof (Q _ _ (or_intror (or_introl (conj eq_refl eq_refl)))) as QY.
  pose proof (Q _ _ (or_intror (or_intror (conj eq_refl eq_refl)))) as QZ.
  apply well_placed_intro; [exact Hs|exact Hu'|exact QX|exact QY|exact QZ].
Qed.

Lemma device_range (m : b64) : m = B754_infinity false \/ (is_finite m = true /\ 0 <= B2R m) ->
  (is_finite m = true -> is_finite (b32_of_b64 m) = true /\ 0 <= B2R (b32_of_b64 m) /\
   Rabs (B2R (b32_of_b64 m) - B2R m) <= u' * Rabs (B2R m) + eta') ->
  exists range', stands_for B is_finite B2R (b32_of_b64 m) range' /\ ranges (256 * (u' * s)) (200 * s) (range_of m) range'.
Proof using Hs Hu' He' He2'.
  intros [ -> |(F & P)] H.
  - exists None. split; [reflexivity|]. intros x _. now split.
  - destruct (H F) as (F' & P' & E). exists (Some (B2R (b32_of_b64 m))). split; [split; [exact F'|split; [exact P'|reflexivity]]|].
    unfold range_of. rewrite F. intros x Hx. cbn [up_to]. rewrite (Rabs_pos_eq _ P) in E.
    assert (U2 : u' * s <= / 1000 * s) by (apply Rmult_le_compat_r; lra). assert (U4 : 0 < u' * s) by (apply Rmult_lt_0_compat; lra).
    destruct (Rle_or_lt (B2R m) (250 * s)) as [C|C].
    + assert (u' * B2R m <= u' * (250 * s)) by (apply Rmult_le_compat_l; lra). apply Rabs_le_inv in E. split; lra.
    + assert (u' * B2R m <= / 1000 * B2R m) by (apply Rmult_le_compat_r; lra). apply Rabs_le_inv in E. split; lra.
Qed.
End Device.

Lemma float_numbers r s : bpow radix2 (-20) <= r <= bpow radix2 20 -> bpow radix2 (-30) <= s <= bpow radix2 14 * r ->
  (0 < bpow radix2 (-24) <= / 1000) /\ 100 * bpow radix2 (-53) <= bpow radix2 (-24) /\ bpow radix2 (-149) <= bpow radix2 (-24) /\
  bpow radix2 (-149) <= bpow radix2 (-24) * s /\ 300 * s <= bpow radix2 126 /\ 300 + 300 * s <= bpow radix2 127 /\
  44 * s <= bpow radix2 20 * r /\ bpow radix2 (-62) <= bpow radix2 (-40) * r.
Proof.
  intros Hr Hs. assert (Sp : 0 < s) by (pose proof (bpow_gt_0 radix2 (-30)); lra). assert (Rp : 0 < r) by (pose proof (bpow_gt_0 radix2 (-20)); lra).
  assert (S34 : s <= bpow radix2 34).
  { eapply Rle_trans; [apply Hs|]. replace (bpow radix2 34) with (bpow radix2 14 * bpow radix2 20) by (rewrite <- bpow_plus; reflexivity).
    apply Rmult_le_compat_l; [apply bpow_ge_0|apply Hr]. }
  assert (S43 : 300 * s <= bpow radix2 43).
  { apply Rle_trans with (bpow radix2 9 * s); [apply Rmult_le_compat_r; [lra|]; cbn; lra|].
    replace (bpow radix2 43) with (bpow radix2 9 * bpow radix2 34) by (rewrite <- bpow_plus; reflexivity). apply Rmult_le_compat_l; [apply bpow_ge_0|exact S34]. }
  split; [split; [apply bpow_gt_0|cbn; lra]|]. split.
  { replace (bpow radix2 (-24)) with (bpow radix2 29 * bpow radix2 (-53)) by (rewrite <- bpow_plus; reflexivity).
    apply Rmult_le_compat_r; [apply bpow_ge_0|]. cbn. lra. }
  split; [apply bpow_le; clear; lia|]. split.
  { apply Rle_trans with (bpow radix2 (-24) * bpow radix2 (-30)); [rewrite <- bpow_plus; apply bpow_le; clear; lia|].
    apply Rmult_le_compat_l; [apply bpow_ge_0|apply Hs]. }
  split; [eapply Rle_trans; [exact S43|]; apply bpow_le; clear; lia|]. split.
  { apply Rle_trans with (bpow radix2 43 + bpow radix2 43).
    - apply Rplus_le_compat; [|exact S43]. apply Rle_trans with (bpow radix2 9); [cbn; lra|apply bpow_le; clear; lia].
    - replace (bpow radix2 43 + bpow radix2 43) with (bpow radix2 1 * bpow radix2 43) by (cbn [bpow]; change (IZR (Z.pow_pos radix2 1)) with 2; ring).
      apply bpow_mult_le. clear; lia. }
  split.
  { apply Rle_trans with (bpow radix2 6 * s); [apply Rmult_le_compat_r; [lra|]; cbn; lra|].
    replace (bpow radix2 20) with (bpow radix2 6 * bpow radix2 14) by (rewrite <- bpow_plus; reflexivity).
    rewrite Rmult_assoc. apply Rmult_le_compat_l; [apply bpow_ge_0|apply Hs]. }
  apply Rle_trans with (bpow radix2 (-40) * bpow radix2 (-20)); [rewrite <- bpow_plus; apply bpow_le; clear; lia|].
  apply Rmult_le_compat_l; [apply bpow_ge_0|apply Hr].
Qed.

Lemma cast_range (m : b64) : good_range m -> is_finite m = true ->
  is_finite (b32_of_b64 m) = true /\ 0 <= B2R (b32_of_b64 m) /\
  Rabs (B2R (b32_of_b64 m) - B2R m) <= bpow radix2 (-24) * Rabs (B2R m) + bpow radix2 (-149).
Proof.
  intros [ -> |(_ & P)] F; [discriminate|].
  assert (B : Rabs (B2R m) <= bpow radix2 127).
  { rewrite Rabs_pos_eq by apply P. eapply Rle_trans; [apply P|]. apply bpow_le; clear; lia. }
  destruct (cast_err m F B) as (F' & E). split; [exact F'|]. split; [|exact E].
  destruct (cast_val m F B) as (_ & Ev). rewrite Ev.
  apply round_ge_generic; [exact (fexp_correct 24 128 prec24)|apply valid_rnd_N|apply generic_format_0|apply P].
Qed.

Lemma dev_place fl fl32 s gw (c : wrapped fl fl32) u eta M L u' eta' M' L' :
  rounded_ray (double_ray fl) is_finite B2R u eta M L -> rounded_ray (float32_ray fl32) is_finite B2R u' eta' M' L' ->
  0 < u <= / 1000 -> 0 < u' <= / 1000 -> 100 * u <= u' -> 0 <= eta -> eta <= u -> eta <= u * s -> 200 <= M -> 300 * s <= M ->
  0 <= eta' -> eta' <= u' -> eta' <= u' * s -> 300 * s <= M' -> 0 < s ->
  (forall y : b64, is_finite y = true -> Rabs (B2R y) <= 300 + 300 * s ->
   is_finite (b32_of_b64 y) = true /\ Rabs (B2R (b32_of_b64 y) - B2R y) <= u' * Rabs (B2R y) + eta') ->
  tame (double_ray fl) is_finite B2R s gw -> tame (double_ray fl) is_finite B2R s (w_pose fl fl32 c) ->
  forall p, vfin (float32_ray fl32) is_finite p -> within s (reals (float32_ray fl32) B2R p) ->
  well_placed (float32_ray fl32) is_finite B2R u' s (c_to_grid (float32_ray fl32) (dev_cloud fl fl32 gw c) p)
    (placed (double_ray fl) B2R gw (placed (double_ray fl) B2R (w_pose fl fl32 c) (reals (float32_ray fl32) B2R p))).
Proof.
  intros RA RB H1 H2 H3 H4 H5 H6 H7 H8 H9 H10 H11 H12 H13 H14 HG HX p Fp Wp.
  exact (device_places fl fl32 u eta M L u' eta' M' L' s RA RB H1 H2 H3 H4 H5 H6 H7 H8 H9 H10 H11 H12 H13 H14 gw (w_pose fl fl32 c) HG HX p _ Fp eq_refl Wp).
Qed.

Lemma dev_cloud_matches fl fl32 nx ny nz N (res : b64) s gw (c : wrapped fl fl32) :
  SdfDoubleSpec.floors fl -> floors32 fl32 -> is_finite res = true -> bpow radix2 (-20) <= B2R res <= bpow radix2 20 ->
  (1 <= N)%Z -> (N * (N + 128) <= 2 ^ 24)%Z -> (nx <= N)%Z -> (ny <= N)%Z -> (nz <= N)%Z ->
  bpow radix2 (-30) <= s <= bpow radix2 14 * B2R res ->
  let A := double_ray fl in
  let B := float32_ray fl32 in
  let e := IZR N * (IZR N + 130) * bpow radix2 (-24) * B2R res + 500 * (bpow radix2 (-24) * s) in
  tame A is_finite B2R s gw -> tame A is_finite B2R s (w_pose fl fl32 c) ->
  (forall p, In p (w_float fl fl32 c) -> vfinite B p = true -> within s (reals B B2R p)) ->
  good_range (w_range fl fl32 c) ->
  inside (B2R res) (e + bpow radix2 (-15) * B2R res) nx ny nz (placed A B2R gw (placed A B2R (w_pose fl fl32 c) (0, 0, 0))) ->
  cloud_matches B (float32_grid fl32 nx ny nz res) (B2R res) e (slack (bpow radix2 (-24)) s) (dev_cloud fl fl32 gw c)
    (sighting_of A B B2R B2R gw (w_pose fl fl32 c) (w_float fl fl32 c) (range_of (w_range fl fl32 c))).
Proof.
  intros Hfl Hfl32 Fr Hr HN HNs Nx Ny Nz Hs A B e HG HX HP Hm Hin. subst A B e.
  assert (Hr30 : bpow radix2 (-30) <= B2R res <= bpow radix2 30).
  { split; [eapply Rle_trans; [|apply Hr]|eapply Rle_trans; [apply Hr|]]; apply bpow_le; clear; lia. }
  destruct (float_setup fl32 nx ny nz N res Hfl32 Fr Hr30 HN HNs Nx Ny Nz) as (ST & Dv). pose proof (proj1 ST) as RB.
  assert (RA : rounded_ray (double_ray fl) is_finite B2R (bpow radix2 (-53)) (bpow radix2 (-1074)) (bpow radix2 1022) (bpow radix2 62)).
  { refine (proj1 (double_setup fl 0 0 0 1 res Hfl Fr _ _ _ _ _ _)); try (clear; lia).
    split; [eapply Rle_trans; [|apply Hr]|eapply Rle_trans; [apply Hr|]]; apply bpow_le; clear; lia. }
  destruct (float_numbers (B2R res) s Hr Hs) as (Hu & Huu & E1 & E2 & M2 & C2 & KK & X2).
  destruct (double_numbers (B2R res) s) as (Hv & D1 & D2 & D3 & D4 & Sp & Rp & _).
  { split; [eapply Rle_trans; [|apply Hr]|eapply Rle_trans; [apply Hr|]]; apply bpow_le; clear; lia. }
  { split; [eapply Rle_trans; [|apply Hs]; apply bpow_le; clear; lia|]. eapply Rle_trans; [apply Hs|].
    apply Rmult_le_compat_r; [pose proof (bpow_gt_0 radix2 (-20)); lra|]. apply bpow_le; clear; lia. }
  assert (Cast : forall y : b64, is_finite y = true -> Rabs (B2R y) <= 300 + 300 * s ->
    is_finite (b32_of_b64 y) = true /\ Rabs (B2R (b32_of_b64 y) - B2R y) <= bpow radix2 (-24) * Rabs (B2R y) + bpow radix2 (-149)).
  { intros y F Y. apply cast_err; [exact F|]. eapply Rle_trans; [exact Y|exact C2]. }
  pose proof (dev_place fl fl32 s gw c _ _ _ _ _ _ _ _ RA RB Hv Hu Huu (bpow_ge_0 _ _) D1 D2 D3 D4 (bpow_ge_0 _ _) E1 E2 M2 Sp Cast HG HX) as Place.
  destruct (device_range fl32 (bpow radix2 (-24)) (bpow radix2 (-149)) s Hu (bpow_ge_0 _ _) E2 Sp (w_range fl fl32 c)
    ltac:(destruct Hm as [Hm|(Hm1 & Hm2 & _)]; [left; exact Hm|right; split; assumption]) (cast_range _ Hm)) as (range' & St & Rg).
  set (e0 := IZR N * (IZR N + 130) * bpow radix2 (-24) * B2R res) in *. set (x := bpow radix2 (-40) * B2R res) in *.
  set (g := float32_grid fl32 nx ny nz res).
  assert (Marks : forall (o p : vec (float32_ray fl32)) bs, good_ray (float32_ray fl32) is_finite B2R (bpow radix2 20 * B2R res) x o p ->
    in_grid (float32_ray fl32) g (voxel_of (float32_ray fl32) g o) = true ->
    cast_point (float32_ray fl32) g (b32_of_b64 (w_range fl fl32 c)) o (voxel_of (float32_ray fl32) g o) p = Some bs ->
    exists k whole, marks_segment (B2R res) e0 k whole nx ny nz (reals (float32_ray fl32) B2R o) (reals (float32_ray fl32) B2R p) bs /\
      cut_near (20 * bpow radix2 (-24) * dist (reals (float32_ray fl32) B2R o) (reals (float32_ray fl32) B2R p)) range'
        (dist (reals (float32_ray fl32) B2R o) (reals (float32_ray fl32) B2R p)) k whole).
  { intros o p bs H Hg E. exact (marks_float_gen fl32 nx ny nz N res x (b32_of_b64 (w_range fl fl32 c)) range' o p bs Hfl32 (Rle_refl _) X2 Fr Hr30
      HN HNs Nx Ny Nz H St Hg E). }
  assert (Gap : forall a b : b32, bpow radix2 (-15) * B2R res <= Rabs (B2R a) -> not_tiny x (B2R b - B2R a)).
  { unfold x. intros a b H. pose proof (float_gap 24 128 prec24 a b _ ltac:(clear; lia) (Rmult_lt_0_compat _ _ (bpow_gt_0 radix2 (-15)) Rp) H) as T.
    destruct T as [T|T]; [left; exact T|right]. eapply Rle_trans; [|exact T].
    replace (bpow radix2 (-15) * B2R res * bpow radix2 (- (24) - 1)) with (bpow radix2 (-15) * bpow radix2 (- (24) - 1) * B2R res) by ring.
    apply Rmult_le_compat_r; [lra|]. rewrite <- bpow_plus. apply bpow_le; clear; lia. }
  assert (Cov : 20 * IZR N * bpow radix2 (-24) * B2R res <= e0) by (apply error_covers; [apply (IZR_le 1 N HN)|apply Hu|exact Rp|lra]).
  assert (KV : 44 * s <= bpow radix2 21 * B2R (b32_of_b64 res)).
  { eapply Rle_trans; [exact KK|]. replace (bpow radix2 21) with (bpow radix2 20 * 2) by (replace 2 with (bpow radix2 1) by reflexivity; rewrite <- bpow_plus; reflexivity).
    rewrite Rmult_assoc. apply Rmult_le_compat_l; [apply bpow_ge_0|]. apply Rabs_le_inv in Dv.
    assert (bpow radix2 (-24) * B2R res <= / 1000 * B2R res) by (apply Rmult_le_compat_r; [lra|apply Hu]). clear - Dv Rp H. lra. }
  set (mu := bpow radix2 (-15) * B2R res) in *.
  pose proof (Rmult_lt_0_compat _ _ (bpow_gt_0 radix2 (-15)) Rp) as Mu. change (0 < mu) in Mu.
  clearbody e0 x mu. subst g.
  revert ST RB Dv Hu Place Marks Cov Rg KK KV Hin.
  generalize (bpow radix2 (-24)) (bpow radix2 (-149)) (bpow radix2 126) (bpow radix2 30) (bpow radix2 20) (bpow radix2 21) (bpow radix2 (-42)).
  clear - Fr HP Gap Mu Rp Sp. intros u eta M L K2 K lam ST RR Dv Hu Place Marks Cov Rg KK KV Hin.
  apply (placed_cloud_matches (float32_ray fl32) is_finite B2R u eta M L K lam (float32_grid fl32 nx ny nz res) N (B2R res) s e0 x mu (dev_cloud fl fl32 gw c)
    (fun q => placed (double_ray fl) B2R gw (placed (double_ray fl) B2R (w_pose fl fl32 c) q)) (range_of (w_range fl fl32 c)) range' ST).
  - intros a H. exact H.
  - exact Dv.
  - exact Rp.
  - exact Sp.
  - exact Hu.
  - exact KV.
  - exact Cov.
  - exact Mu.
  - exact Gap.
  - intros o p bs G. apply Marks. exact (good_ray_le _ _ _ _ _ _ _ _ _ G KK (Rle_refl _)).
  - exact Place.
  - exact HP.
  - exact Rg.
  - exact Hin.
Qed.
