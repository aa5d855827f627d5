(** C88: gradients computed in double precision. *)
From Coq Require Import ZArith Reals List Lia Lra Bool SpecFloat.
From Flocq Require Import Core BinarySingleNaN.
From Verif Require Import Util Grid FloatModel EdtFloat SdfSpec SdfQueryModel SdfQueryArith SdfQuerySpec SdfEstimateProofs ClearanceSpec
  SdfDoubleModel SdfDoubleSpec SdfDoubleProofs SdfDoubleEstimate SdfDoubleLerp SdfDoubleGradient SdfDoubleFine PropsDouble PropsSdfQuery.
Import ListNotations.
Local Open Scope R_scope.

(** The coarse gradient: there is one in double exactly if there is an exact one, and each
    of its components is close to the exact one. *)
Theorem c88_coarse V (ssub : V -> V -> V) (of : V -> b64) fl tri (res : b64) (g : grid V) f D eta to_grid to_world rotate
    to_grid' to_world' rotate' i edges :
  let r := B2R res in is_finite res = true -> bpow radix2 (-900) <= r <= bpow radix2 900 ->
  0 <= D -> D <= bpow radix2 1000 -> D <= bpow radix2 1000 * r ->
  bpow radix2 (-53) <= eta <= 1 -> subtracts eta D ssub of ->
  gwf g -> reals_of (fun v d => is_finite (of v) = true /\ d = B2R (of v)) g f ->
  (forall i d, gget f i = Some d -> Rabs d <= D) ->
  let tol := (2 * eta + bpow radix2 (-48)) * (D / r + 1) in
  let close (v : b64) x := is_finite v = true /\ Rabs (B2R v - x) <= tol in
  match grid_gradient (double_query V ssub of fl tri) (double_field V ssub of fl tri g res to_grid to_world rotate) i edges,
        grid_gradient real_query (real_field f r to_grid' to_world' rotate') i edges with
  | Answer (vx, vy, vz), Answer (x, y, z) => close vx x /\ close vy y /\ close vz z
  | Empty, Empty => True
  | _, _ => False
  end.
Proof.
  intros r Fr Hr D0 D1 D2 He Hs W V0 Bd tol close.
  pose proof (gradient_both V ssub of fl tri res r D eta (conj Fr eq_refl) Hr D0 D1 D2 He Hs g f to_grid to_world rotate
    to_grid' to_world' rotate' W V0 Bd i edges) as H.
  destruct (grid_gradient (double_query V ssub of fl tri) (double_field V ssub of fl tri g res to_grid to_world rotate) i edges) as [| |[[vx vy] vz]],
    (grid_gradient real_query (real_field f r to_grid' to_world' rotate') i edges) as [| |[[x y] z]]; exact H.
Qed.
Print Assumptions c88_coarse.

(** Stored doubles ... *)
Theorem c88_coarse_double fl tri (res : b64) (g : grid b64) f D to_grid to_world rotate to_grid' to_world' rotate' i edges :
  let r := B2R res in is_finite res = true -> bpow radix2 (-900) <= r <= bpow radix2 900 ->
  0 <= D -> D <= bpow radix2 1000 -> D <= bpow radix2 1000 * r ->
  gwf g -> reals_of (fun v d => is_finite v = true /\ d = B2R v) g f ->
  (forall i d, gget f i = Some d -> Rabs d <= D) ->
  let tol := bpow radix2 (-47) * (D / r + 1) in
  let close (v : b64) x := is_finite v = true /\ Rabs (B2R v - x) <= tol in
  let A := double_query b64 b64_sub (fun v => v) fl tri in
  match grid_gradient A (double_field b64 b64_sub (fun v => v) fl tri g res to_grid to_world rotate) i edges,
        grid_gradient real_query (real_field f r to_grid' to_world' rotate') i edges with
  | Answer (vx, vy, vz), Answer (x, y, z) => close vx x /\ close vy y /\ close vz z
  | Empty, Empty => True
  | _, _ => False
  end.
Proof.
  intros r Fr Hr D0 D1 D2 W V0 Bd tol close A.
  pose proof (c88_coarse b64 b64_sub (fun v => v) fl tri res g f D (bpow radix2 (-53)) to_grid to_world rotate to_grid' to_world' rotate' i edges
    Fr Hr D0 D1 D2 ltac:(split; [lra|change 1 with (bpow radix2 0); apply bpow_le; lia]) (subtracts_double D D1) W V0 Bd) as H.
  assert (Rp : 0 < r) by (pose proof (bpow_gt_0 radix2 (-900)); lra).
  assert (Dr : 0 <= D / r) by (apply Rmult_le_pos; [exact D0|left; now apply Rinv_0_lt_compat]).
  assert (K : (2 * bpow radix2 (-53) + bpow radix2 (-48)) * (D / r + 1) <= tol).
  { apply Rmult_le_compat_r; [lra|]. change (-47)%Z with (1 + -48)%Z. rewrite bpow_plus.
    assert (2 * bpow radix2 (-53) = bpow radix2 (-52)) by (change 2 with (bpow radix2 1); now rewrite <- bpow_plus).
    assert (bpow radix2 (-52) <= bpow radix2 (-48)) by (apply bpow_le; lia). change (bpow radix2 1) with 2. lra. }
  fold A r in H. destruct (grid_gradient A (double_field b64 b64_sub (fun v => v) fl tri g res to_grid to_world rotate) i edges) as [| |[[vx vy] vz]], (grid_gradient real_query (real_field f r to_grid' to_world' rotate') i edges) as [| |[[x y] z]]; try exact H.
  destruct H as ((H1 & H2) & (H3 & H4) & H5 & H6). unfold close. do 2 (split; [split; [assumption|lra]|]). split; [assumption|lra].
Qed.
Print Assumptions c88_coarse_double.

(** ... and stored floats, the difference of which is rounded to a float. *)
Theorem c88_coarse_float fl tri (res : b64) (g : grid b32) f D to_grid to_world rotate to_grid' to_world' rotate' i edges :
  let r := B2R res in is_finite res = true -> bpow radix2 (-800) <= r <= bpow radix2 900 ->
  0 <= D -> D <= bpow radix2 126 ->
  gwf g -> reals_of (fun v d => is_finite v = true /\ d = B2R v) g f ->
  (forall i d, gget f i = Some d -> Rabs d <= D) ->
  let tol := bpow radix2 (-22) * (D / r + 1) in
  let close (v : b64) x := is_finite v = true /\ Rabs (B2R v - x) <= tol in
  let A := double_query b32 b32_sub b64_of_b32 fl tri in
  match grid_gradient A (double_field b32 b32_sub b64_of_b32 fl tri g res to_grid to_world rotate) i edges,
        grid_gradient real_query (real_field f r to_grid' to_world' rotate') i edges with
  | Answer (vx, vy, vz), Answer (x, y, z) => close vx x /\ close vy y /\ close vz z
  | Empty, Empty => True
  | _, _ => False
  end.
Proof.
  intros r Fr Hr D0 D1 W V0 Bd tol close A.
  assert (Hr' : bpow radix2 (-900) <= r <= bpow radix2 900).
  { split; [|apply Hr]. apply Rle_trans with (bpow radix2 (-800)); [apply bpow_le; lia|apply Hr]. }
  assert (Rp : 0 < r) by (pose proof (bpow_gt_0 radix2 (-900)); lra).
  assert (Dr : 0 <= D / r) by (apply Rmult_le_pos; [exact D0|left; now apply Rinv_0_lt_compat]).
  assert (D1' : D <= bpow radix2 1000) by (apply Rle_trans with (1 := D1); apply bpow_le; lia).
  assert (D2 : D <= bpow radix2 1000 * r).
  { apply Rle_trans with (bpow radix2 1000 * bpow radix2 (-800)).
    - apply Rle_trans with (1 := D1). rewrite <- bpow_plus. apply bpow_le. lia.
    - apply Rmult_le_compat_l; [apply bpow_ge_0|apply Hr]. }
  assert (V1 : reals_of (fun v d => is_finite (b64_of_b32 v) = true /\ d = B2R (b64_of_b32 v)) g f).
  { destruct V0 as (? & ? & ? & ? & V0). do 4 (split; [assumption|]). intros j v Gv. destruct (V0 j v Gv) as (d & Gd & Fv & Ev).
    destruct (of_b32_val v Fv) as (Fv' & Ev'). exists d. split; [exact Gd|]. split; [exact Fv'|]. now rewrite Ev'. }
  pose proof (c88_coarse b32 b32_sub b64_of_b32 fl tri res g f D (bpow radix2 (-24)) to_grid to_world rotate to_grid' to_world' rotate' i edges
    Fr Hr' D0 D1' D2 ltac:(split; [apply bpow_le; lia|change 1 with (bpow radix2 0); apply bpow_le; lia]) (subtracts_float D D1) W V1 Bd) as H.
  assert (K : (2 * bpow radix2 (-24) + bpow radix2 (-48)) * (D / r + 1) <= tol).
  { apply Rmult_le_compat_r; [lra|]. change (-22)%Z with (2 + -24)%Z. rewrite bpow_plus.
    assert (bpow radix2 (-48) <= bpow radix2 (-24)) by (apply bpow_le; lia). change (bpow radix2 2) with 4. pose proof (bpow_gt_0 radix2 (-24)). lra. }
  fold A r in H. destruct (grid_gradient A (double_field b32 b32_sub b64_of_b32 fl tri g res to_grid to_world rotate) i edges) as [| |[[vx vy] vz]], (grid_gradient real_query (real_field f r to_grid' to_world' rotate') i edges) as [| |[[x y] z]]; try exact H.
  destruct H as ((H1 & H2) & (H3 & H4) & H5 & H6). unfold close. do 2 (split; [split; [assumption|lra]|]). split; [assumption|lra].
Qed.
Print Assumptions c88_coarse_float.

Lemma exact_small (f : grid R) r D to_grid to_world rotate p x : 0 < r -> gwf f -> 0 <= D ->
  (forall i d, gget f i = Some d -> Rabs d <= D) ->
  estimate real_query (real_field f r to_grid to_world rotate) p = Answer x -> Rabs x <= 8 * (D + r / 2).
Proof.
  intros Rp W D0 Bd E. pose proof (estimate_answers _ _ _ _ _ Rp p x E) as Hi.
  rewrite (estimate_blend _ _ _ _ _ Rp W) in E by exact Hi. injection E as <-.
  destruct Hi as (Ix & Iy & Iz). rewrite voxels_inside in Ix, Iy, Iz by exact Rp. pose proof W as (Px & Py & Pz & _).
  unfold blend3, voxels. cbn [fst snd].
  replace (8 * (D + r / 2)) with (2 * (2 * (2 * (D + r / 2)))) by ring.
  apply blend_abs; [lia|exact Ix|]. intros a _ _. apply blend_abs; [lia|exact Iy|]. intros b _ _.
  apply blend_abs; [lia|exact Iz|]. intros c _ _. unfold field_value. destruct (gget f (a, b, c)) as [d|] eqn:Ed.
  - pose proof (Bd _ _ Ed) as Hd. apply Rabs_le_inv in Hd. unfold shifted. apply Rabs_le. destruct (Rle_dec 0 d); lra.
  - rewrite Rabs_R0. lra.
Qed.

(** The fine gradient: each component is close to a difference quotient of exact estimates
    at the locations at which the double estimates are taken, if the window is not much
    smaller than the voxels and the location not much further from the origin than 2^50
    windows.  Missing: other windows, of which the claim is false (below). *)
Theorem c88_fine_partial V ssub (of : V -> b64) fl tri kappa (res : b64) (g : grid V) f N D to_grid to_world rotate
    (x y z window gx gy gz : b64) :
  floors fl -> interpolates kappa tri -> 0 <= kappa ->
  let r := B2R res in is_finite res = true -> bpow radix2 (-900) <= r <= bpow radix2 900 ->
  gwf g -> (g_nx g <= N)%Z -> (g_ny g <= N)%Z -> (g_nz g <= N)%Z -> (N <= 2 ^ 25)%Z ->
  reals_of (fun v d => is_finite (of v) = true /\ d = B2R (of v)) g f ->
  0 <= D -> (forall i d, gget f i = Some d -> Rabs d <= D) -> D + r / 2 <= bpow radix2 100 * r ->
  2 * kappa + IZR N * bpow radix2 (-43) <= 1 ->
  finite3 (x, y, z) -> is_finite window = true ->
  let w := Babs window in
  bpow radix2 (-40) * r <= B2R w <= bpow radix2 40 * r ->
  Rabs (B2R x) <= bpow radix2 50 * B2R w -> Rabs (B2R y) <= bpow radix2 50 * B2R w -> Rabs (B2R z) <= bpow radix2 50 * B2R w ->
  let one := b64_lit 1 0 in
  Forall (fun v => finite3 (to_grid (v, one)))
    [(x, y, z); (b64_sub x w, y, z); (b64_add x w, y, z); (x, b64_sub y w, z); (x, b64_add y w, z); (x, y, b64_sub z w); (x, y, b64_add z w)] ->
  let A := double_query V ssub of fl tri in
  let s := double_field V ssub of fl tri g res to_grid to_world rotate in
  fine_gradient A s (x, y, z) window = Answer (gx, gy, gz) ->
  let E v := estimate A s (v, one) in
  let X v := estimate real_query (real_field f r fst (fun v => v) (fun v => v)) (reals3 (to_grid (v, one)), 1) in
  let tol := (4 * kappa + IZR N * bpow radix2 (-41)) * (D + r / 2) in
  rounded_slope (fun t => E (t, y, z)) (fun t => X (t, y, z)) x w tol gx /\
  rounded_slope (fun t => E (x, t, z)) (fun t => X (x, t, z)) y w tol gy /\
  rounded_slope (fun t => E (x, y, t)) (fun t => X (x, y, t)) z w tol gz.
Proof.
  intros Hfl Htri Hk r Fr Hr W Nx Ny Nz HN V0 D0 Bd HD Small (Fx & Fy & Fz) Fw w Hw Lx Ly Lz one Pts A s HG E X tol.
  assert (Rp : 0 < r) by (pose proof (bpow_gt_0 radix2 (-900)); lra).
  assert (Fw' : is_finite w = true) by (unfold w; now rewrite is_finite_Babs).
  cbn [fst snd] in Fx, Fy, Fz.
  set (e := (2 * kappa + IZR N * bpow radix2 (-43)) * (D + r / 2)).
  assert (N0 : 1 <= IZR N) by (apply IZR_le; destruct W; lia).
  assert (K0 : 0 <= 2 * kappa + IZR N * bpow radix2 (-43)).
  { apply Rplus_le_le_0_compat; [lra|]. apply Rmult_le_pos; [lra|apply bpow_ge_0]. }
  assert (He : 0 <= e <= D + r / 2).
  { unfold e. split; [apply Rmult_le_pos; lra|]. rewrite <- (Rmult_1_l (D + r / 2)) at 2. apply Rmult_le_compat_r; lra. }
  assert (D1 : D + r / 2 <= bpow radix2 1000).
  { apply Rle_trans with (1 := HD). apply Rle_trans with (bpow radix2 100 * bpow radix2 900).
    - apply Rmult_le_compat_l; [apply bpow_ge_0|lra].
    - rewrite <- bpow_plus. apply bpow_le. lia. }
  pose proof V0 as (Wf & _).
  assert (C : forall v ev xv, finite3 (to_grid (v, one)) -> E v = Answer ev -> X v = Answer xv ->
    is_finite ev = true /\ Rabs (B2R ev - xv) <= e /\ Rabs xv <= 8 * (D + r / 2)).
  { intros v ev xv Fv Ev Xv.
    destruct (c87_estimate V ssub of fl tri kappa res g f N D to_grid to_world rotate fst (fun v => v) (fun v => v)
      (v, one) (reals3 (to_grid (v, one)), 1) ev xv Hfl Htri Fr Hr W Nx Ny Nz HN V0 Bd D1 Fv eq_refl Ev Xv) as (H1 & H2).
    split; [exact H1|]. split; [exact H2|]. exact (exact_small f r D _ _ _ _ _ Rp Wf D0 Bd Xv). }
  assert (T : 2 * e + 64 * u53 * (D + r / 2) <= tol).
  { unfold e, tol.
    replace (2 * ((2 * kappa + IZR N * bpow radix2 (-43)) * (D + r / 2)) + 64 * u53 * (D + r / 2))
      with ((4 * kappa + 2 * (IZR N * bpow radix2 (-43)) + 64 * u53) * (D + r / 2)) by ring.
    apply Rmult_le_compat_r; [lra|]. change (-41)%Z with (2 + -43)%Z. rewrite bpow_plus. change (bpow radix2 2) with 4.
    assert (64 * u53 <= bpow radix2 (-43)).
    { unfold u53. change 64 with (bpow radix2 6). rewrite <- bpow_plus. apply bpow_le. lia. }
    assert (1 * bpow radix2 (-43) <= IZR N * bpow radix2 (-43)) by (apply Rmult_le_compat_r; [apply bpow_ge_0|lra]).
    pose proof (bpow_ge_0 radix2 (-43)). lra. }
  assert (L : forall F G t c, rounded_slope F G t w (2 * e + 64 * u53 * (D + r / 2)) c -> rounded_slope F G t w tol c).
  { intros F G t c (a & b & H1 & H2 & H3 & H4 & H5 & H6). exists a, b.
    split; [exact H1|]. split; [exact H2|]. split; [exact H3|]. split; [exact H4|]. split; [exact H5|].
    intros ea eb Ea Eb. destruct (H6 ea eb Ea Eb) as (H7 & H8). split; [exact H7|]. eapply Rle_trans; [exact H8|].
    unfold Rdiv. apply Rmult_le_compat_r; [left; apply Rinv_0_lt_compat; lra|exact T]. }
  rewrite Forall_forall in Pts.
  assert (HB : r / 2 <= D + r / 2 <= bpow radix2 100 * r) by lra.
  unfold fine_gradient in HG. change (q_abs A window) with w in HG.
  destruct (in_bounds _ _) in HG; [|discriminate].
  match type of HG with value_of ?a _ = _ => destruct a as [| |cx] eqn:Ax in HG; try discriminate end. cbn [value_of] in HG.
  match type of HG with value_of ?a _ = _ => destruct a as [| |cy] eqn:Ay in HG; try discriminate end. cbn [value_of] in HG.
  match type of HG with value_of ?a _ = _ => destruct a as [| |cz] eqn:Az in HG; try discriminate end. cbn [value_of] in HG.
  injection HG as -> -> ->.
  split; [|split]; apply L.
  - apply (fine_axis_slope V ssub of fl tri _ _ x w r (D + r / 2) e gx Fx Fw' Hr Hw Lx HB He); [|exact Ax].
    intros t et xt Et Xt It. apply (C (t, y, z)); [apply Pts|exact Et|exact Xt]. cbn in It |- *. intuition (subst; tauto).
  - apply (fine_axis_slope V ssub of fl tri _ _ y w r (D + r / 2) e gy Fy Fw' Hr Hw Ly HB He); [|exact Ay].
    intros t et xt Et Xt It. apply (C (x, t, z)); [apply Pts|exact Et|exact Xt]. cbn in It |- *. intuition (subst; tauto).
  - apply (fine_axis_slope V ssub of fl tri _ _ z w r (D + r / 2) e gz Fz Fw' Hr Hw Lz HB He); [|exact Az].
    intros t et xt Et Xt It. apply (C (x, y, t)); [apply Pts|exact Et|exact Xt]. cbn in It |- *. intuition (subst; tauto).
Qed.
Print Assumptions c88_fine_partial.

(** A window that is lost in the rounding of the coordinates makes the fine gradient NaN. *)
Theorem c88_tiny_window_refuted : exists (s : qfield sf_query) (v : sf * sf * sf) (w gy gz : sf),
  Forall (fun d => is_finite_SF d = true) (g_cells (s_grid _ s)) /\
  SFltb (S754_zero false) w = true /\ SFltb w sf_one = true /\
  fine_gradient sf_query s v w = Answer (S754_nan, gy, gz).
Proof.
  exists (plain_field (mkGrid 3 1 1 (map sf_ofZ [1; 2; 4]%Z))), (sf_one, half_sf, half_sf), (S754_finite false 4503599627370496 (-112)).
  eexists _, _. split; [repeat constructor|]. split; [vm_compute; reflexivity|]. split; vm_compute; reflexivity.
Qed.
Print Assumptions c88_tiny_window_refuted.

Lemma fine_answered A s x y z window : let w := q_abs A window in
  let E x y z := exists e, estimate A s ((x, y, z), q_one A) = Answer e in
  E x y z -> E (q_sub A x w) y z -> E (q_add A x w) y z -> E x (q_sub A y w) z -> E x (q_add A y w) z ->
  E x y (q_sub A z w) -> E x y (q_add A z w) -> exists v, fine_gradient A s (x, y, z) window = Answer v.
Proof.
  intros w E (e0 & H0) (e1 & H1) (e2 & H2) (e3 & H3) (e4 & H4) (e5 & H5) (e6 & H6).
  unfold fine_gradient. fold w.
  match goal with |- exists v, (if ?b then _ else _) = _ => assert (Hb : b = true) end.
  { unfold estimate in H0. destruct (in_bounds _ _) in H0 |- *; [reflexivity|discriminate H0]. }
  rewrite Hb, H0, H1, H2, H3, H4, H5, H6. cbn [fine_axis value_of]. eexists. reflexivity.
Qed.

(** Three voxels of size 1 storing 1, 2 and 4, asked at (1.5, 0.5, 0.5) with a window of
    0.25: everything that is assumed above holds, and both gradients are answered. *)
Example c88_case : let fl := fun t : b64 => Zfloor (B2R t) in let res := b64_lit 1 0 in let id := fun v : b64 * b64 * b64 => v in
  let g := mkGrid 3 1 1 [b64_lit 1 0; b64_lit 2 0; b64_lit 4 0] in let f := mkGrid 3 1 1 [1; 2; 4] in
  let x := b64_lit 3 (-1) in let y := b64_lit 1 (-1) in let window := b64_lit 1 (-2) in let w := Babs window in
  let A := double_query b64 b64_sub (fun v => v) fl b64_trilinear in
  let s := double_field b64 b64_sub (fun v => v) fl b64_trilinear g res fst id id in
  floors fl /\ B2R res = 1 /\ gwf g /\ reals_of (fun v d => is_finite v = true /\ d = B2R v) g f /\
  (forall i d, gget f i = Some d -> Rabs d <= 4) /\
  2 * bpow radix2 (-41) + 3 * bpow radix2 (-43) <= 1 /\ B2R w = 1 / 4 /\ B2R x = 3 / 2 /\ B2R y = 1 / 2 /\
  Forall finite3 [(x, y, y); (b64_sub x w, y, y); (b64_add x w, y, y); (x, b64_sub y w, y); (x, b64_add y w, y); (x, y, b64_sub y w); (x, y, b64_add y w)] /\
  (exists v, grid_gradient A s (1, 0, 0)%Z true = Answer v) /\ (exists v, fine_gradient A s (x, y, y) window = Answer v).
Proof.
  assert (P0 : 0 <= 4) by lra.
  assert (P : 4 <= bpow radix2 1000) by (apply Rle_trans with (bpow radix2 2); [cbn; lra|apply bpow_le; lia]).
  assert (P1 : 4 <= bpow radix2 1000 * 1) by lra.
  assert (Hr : bpow radix2 (-900) <= 1 <= bpow radix2 900) by (change 1 with (bpow radix2 0); split; apply bpow_le; lia).
  intros fl res id g f x y window w A s.
  assert (Hfl : floors fl) by (intros t _ _; reflexivity).
  destruct one_val as (F1 & E1).
  assert (Vx : val x (3 / 2)) by (replace (3 / 2) with (3 * bpow radix2 (-1)) by (cbn; lra); apply lit_val; easy).
  assert (Vy : val y (1 / 2)) by (replace (1 / 2) with (1 * bpow radix2 (-1)) by (cbn; lra); apply lit_val; easy).
  assert (Vw : val window (1 / 4)) by (replace (1 / 4) with (1 * bpow radix2 (-2)) by (cbn; lra); apply lit_val; easy).
  assert (V2 : val (b64_lit 2 0) 2).
  { pose proof (lit_val 2 0 ltac:(easy) ltac:(easy)) as H. change (bpow radix2 0) with 1 in H. now rewrite Rmult_1_r in H. }
  assert (V4 : val (b64_lit 4 0) 4).
  { pose proof (lit_val 4 0 ltac:(easy) ltac:(easy)) as H. change (bpow radix2 0) with 1 in H. now rewrite Rmult_1_r in H. }
  destruct Vx as (Fx & Ex), Vy as (Fy & Ey), Vw as (Fw & Ew), V2 as (F2 & E2), V4 as (F4 & E4).
  assert (Ew' : B2R w = 1 / 4) by (unfold w; rewrite B2R_Babs, Ew; apply Rabs_pos_eq; lra).
  assert (Fw' : is_finite w = true) by (unfold w; now rewrite is_finite_Babs).
  assert (K1 : bpow radix2 (-40) * 1 <= 1 / 4 <= bpow radix2 40 * 1) by (cbn; lra).
  assert (K2 : 3 / 2 <= bpow radix2 50 * (1 / 4)) by (cbn; lra).
  assert (W : gwf g) by (repeat split; reflexivity || (cbn; lia)).
  destruct (window_points x w 1 Fx Fw' Hr) as (Fxm & Fxp & Nxm & Nxp); [rewrite Ew'; exact K1|rewrite Ex, Ew', Rabs_pos_eq by lra; exact K2|].
  destruct (window_points y w 1 Fy Fw' Hr) as (Fym & Fyp & Nym & Nyp); [rewrite Ew'; exact K1|rewrite Ey, Ew', Rabs_pos_eq by lra; lra|].
  rewrite Ew', Ex in Nxm, Nxp. rewrite Ew', Ey in Nym, Nyp.
  set (xm := b64_sub x w) in *. set (xp := b64_add x w) in *. set (ym := b64_sub y w) in *. set (yp := b64_add y w) in *.
  apply Rabs_le_inv in Nxm, Nxp, Nym, Nyp.
  assert (Small : 3 * bpow radix2 (-50) * 1 <= 1 / 100) by (cbn; lra).
  assert (Big : 3 <= bpow radix2 62 * 1) by (cbn; lra).
  assert (An0 : forall g : grid b64, gwf g -> g_nx g = 3%Z -> g_ny g = 1%Z -> g_nz g = 1%Z ->
    forall a b c, is_finite a = true -> is_finite b = true -> is_finite c = true ->
    1 <= B2R a <= 2 -> 1 / 10 <= B2R b <= 9 / 10 -> 1 / 10 <= B2R c <= 9 / 10 ->
    exists e, estimate A (double_field b64 b64_sub (fun v => v) fl b64_trilinear g res fst id id) ((a, b, c), res) = Answer e).
  { clear - Hfl F1 E1 Hr Small Big. intros g W Gx Gy Gz a b c Fa Fb Fc Ha Hb Hc.
    assert (Hr' : bpow radix2 (-900) <= B2R res <= bpow radix2 900) by (unfold res; rewrite E1; exact Hr).
    assert (Fq : finite3 (a, b, c)) by exact (conj Fa (conj Fb Fc)).
    assert (Gq : fits (B2R res) (a, b, c)).
    { unfold fits, res. cbn [fst snd]. rewrite E1. repeat split; rewrite Rabs_pos_eq by lra; lra. }
    pose proof (c87_answers b64 b64_sub (fun v => v) fl b64_trilinear res g 3 fst id id ((a, b, c), res) Hfl F1 Hr' W
      ltac:(lia) ltac:(lia) ltac:(lia) ltac:(lia) Fq Gq) as (H & _).
    cbn [fst snd] in H. unfold res in H at 1 2 3 4 5 6 7 8 9. rewrite ?E1, ?Gx, ?Gy, ?Gz in H. apply H; lra. }
  pose proof (An0 g W eq_refl eq_refl eq_refl) as An. fold s in An. clear An0.
  assert (Cells : forall i d, gget f i = Some d -> Rabs d <= 4 /\ exists v, gget g i = Some v /\ is_finite v = true /\ d = B2R v).
  { intros [[a b] c] d Gd. pose proof (gget_in_bounds f _ _ Gd) as Hb. rewrite in_bounds_iff in Hb. cbn [f g_nx g_ny g_nz] in Hb.
    assert (b = 0 /\ c = 0)%Z as (-> & ->) by (clear - Hb; lia).
    assert (a = 0 \/ a = 1 \/ a = 2)%Z as [-> | [-> | ->]] by (clear - Hb; lia); injection Gd as <-.
    - split; [rewrite Rabs_pos_eq; lra|]. exists (b64_lit 1 0). split; [reflexivity|]. split; [exact F1|now rewrite E1].
    - split; [rewrite Rabs_pos_eq; lra|]. exists (b64_lit 2 0). split; [reflexivity|]. split; [exact F2|now rewrite E2].
    - split; [rewrite Rabs_pos_eq; lra|]. exists (b64_lit 4 0). split; [reflexivity|]. split; [exact F4|now rewrite E4]. }
  assert (Wf : gwf f) by (repeat split; reflexivity || (cbn; lia)).
  assert (Vals : reals_of (fun v d => is_finite v = true /\ d = B2R v) g f).
  { split; [exact Wf|]. do 3 (split; [reflexivity|]). intros i v Gv.
    pose proof (gget_in_bounds g _ _ Gv) as Hb. destruct (gget_some f i Wf Hb) as (d & Gd).
    destruct (Cells i d Gd) as (_ & v' & Gv' & Fv & Ev). pose proof (eq_trans (eq_sym Gv) Gv') as Q. injection Q as <-. exists d. exact (conj Gd (conj Fv Ev)). }
  split; [exact Hfl|]. split; [exact E1|]. split; [exact W|]. split; [exact Vals|].
  split; [intros i d Gd; exact (proj1 (Cells i d Gd))|]. split; [cbn; lra|].
  split; [exact Ew'|]. split; [exact Ex|]. split; [exact Ey|].
  split; [repeat (constructor; [split; [|split]; assumption|]); constructor|]. split.
  - pose proof (c88_coarse_double fl b64_trilinear res g f 4 fst id id fst (fun v => v) (fun v => v) (1, 0, 0)%Z true) as H.
    unfold res in H. rewrite E1 in H. fold res in H.
    specialize (H F1 Hr P0 P P1 W Vals (fun i d Gd => proj1 (Cells i d Gd))).
    cbv zeta in H. fold A s in H. set (b := grid_gradient real_query _ _ _) in H.
    assert (Hb : b <> Empty) by (clear; unfold b, grid_gradient, edge_axis; cbn; change (Pos.to_nat 1) with 1%nat; change (Pos.to_nat 2) with 2%nat; cbn; repeat destruct (Rltb _ _); discriminate). clearbody b.
    destruct (grid_gradient A s (1, 0, 0)%Z true) as [| |v]; [destruct b; [destruct (Hb eq_refl) || destruct H..]|destruct b; [destruct (Hb eq_refl) || destruct H..]|exists v; reflexivity].
  - assert (Ax : 1 <= B2R x <= 2) by (rewrite Ex; clear; lra). assert (Axm : 1 <= B2R xm <= 2) by (clear - Nxm; lra).
    assert (Axp : 1 <= B2R xp <= 2) by (clear - Nxp; lra). assert (Ay : 1 / 10 <= B2R y <= 9 / 10) by (rewrite Ey; clear; lra).
    assert (Aym : 1 / 10 <= B2R ym <= 9 / 10) by (clear - Nym; lra). assert (Ayp : 1 / 10 <= B2R yp <= 9 / 10) by (clear - Nyp; lra).
    apply (fine_answered A s x y y window (An x y y Fx Fy Fy Ax Ay Ay) (An xm y y Fxm Fy Fy Axm Ay Ay) (An xp y y Fxp Fy Fy Axp Ay Ay)
      (An x ym y Fx Fym Fy Ax Aym Ay) (An x yp y Fx Fyp Fy Ax Ayp Ay) (An x y ym Fx Fy Fym Ax Ay Aym) (An x y yp Fx Fy Fyp Ax Ay Ayp)).
Qed.
