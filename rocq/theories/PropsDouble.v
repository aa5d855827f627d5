(** C87: distances estimated in double precision. *)
From Coq Require Import ZArith Reals List Lia Lra Bool.
From Flocq Require Import Core BinarySingleNaN.
From Verif Require Import Util Grid FloatModel EdtSpec EdtFloat SdfModel SdfSpec SdfFloatProofs SdfSingleModel SdfSingleProofs SdfQueryModel SdfQueryArith
  SdfQuerySpec SdfEstimateProofs ClearanceSpec ClearanceProofs PropsClearance
  SdfDoubleModel SdfDoubleSpec SdfDoubleProofs SdfDoubleEstimate SdfDoubleLerp SdfDoubleClearance.
Import ListNotations.
Local Open Scope R_scope.

Lemma slack128 N : 128 * slack N = N * bpow radix2 (-43).
Proof. change (-43)%Z with (10 + -53)%Z. rewrite bpow_plus. change (bpow radix2 10) with 1024. unfold slack, u53. ring. Qed.
Lemma slack1 N : slack N = N * bpow radix2 (-50).
Proof. change (-50)%Z with (3 + -53)%Z. rewrite bpow_plus. change (bpow radix2 3) with 8. unfold slack, u53. ring. Qed.

Lemma inside_fits r n N q : 0 < r -> IZR n <= N -> N <= 33554432 -> inside_axis r n q -> Rabs q <= bpow radix2 62 * r.
Proof.
  intros Hr Hn HN (H1 & H2). rewrite Rabs_pos_eq by lra. apply Rle_trans with (r * 33554432).
  - apply Rle_trans with (r * IZR n); [lra|]. apply Rmult_le_compat_l; lra.
  - rewrite Rmult_comm. apply Rmult_le_compat_r; [lra|]. change 33554432 with (bpow radix2 25). apply bpow_le. lia.
Qed.

(** Where the exact estimate exists, the double one is close to it. *)
Theorem c87_estimate V ssub (of : V -> b64) fl tri kappa (res : b64) (g : grid V) f N D to_grid to_world rotate
    to_grid' to_world' rotate' p p' e x :
  floors fl -> interpolates kappa tri ->
  let r := B2R res in is_finite res = true -> bpow radix2 (-900) <= r <= bpow radix2 900 ->
  gwf g -> (g_nx g <= N)%Z -> (g_ny g <= N)%Z -> (g_nz g <= N)%Z -> (N <= 2 ^ 25)%Z ->
  reals_of (fun v d => is_finite (of v) = true /\ d = B2R (of v)) g f ->
  (forall i d, gget f i = Some d -> Rabs d <= D) -> D + r / 2 <= bpow radix2 1000 ->
  finite3 (to_grid p) -> to_grid' p' = reals3 (to_grid p) ->
  estimate (double_query V ssub of fl tri) (double_field V ssub of fl tri g res to_grid to_world rotate) p = Answer e ->
  estimate real_query (real_field f r to_grid' to_world' rotate') p' = Answer x ->
  is_finite e = true /\ Rabs (B2R e - x) <= (2 * kappa + IZR N * bpow radix2 (-43)) * (D + r / 2).
Proof.
  intros Hfl Htri r Fr Hr W Nx Ny Nz HN V0 Bd HD Fq Eq Ee Ex.
  assert (Rp : 0 < r) by (pose proof (bpow_gt_0 radix2 (-900)); lra).
  pose proof W as (Px & Py & Pz & _). pose proof V0 as (Wf & Fx & Fy & Fz & _).
  assert (N1 : 1 <= IZR N <= 33554432).
  { change (2 ^ 25)%Z with 33554432%Z in HN. split; apply IZR_le; lia. }
  apply IZR_le in Nx, Ny, Nz.
  pose proof (estimate_answers _ _ _ _ _ Rp p' x Ex) as Hi. rewrite Eq in Hi.
  rewrite (estimate_blend _ _ _ _ _ Rp Wf) in Ex by (rewrite Eq; exact Hi). injection Ex as <-. rewrite Eq.
  rewrite <- slack128. destruct Hi as (Ix & Iy & Iz).
  apply (estimate_double V ssub of fl tri res r (IZR N) Hfl (conj Fr eq_refl) Hr N1 g f to_grid to_world rotate D kappa W
    (conj Nx (conj Ny Nz)) V0 Bd HD Htri p e Fq); [|exact Ee|exact (conj Ix (conj Iy Iz))].
  rewrite Fx in Ix. rewrite Fy in Iy. rewrite Fz in Iz. cbn [reals3 fst snd] in Ix, Iy, Iz.
  split; [|split]; eapply inside_fits; [exact Rp|exact Nx|apply N1|exact Ix|exact Rp|exact Ny|apply N1|exact Iy
    |exact Rp|exact Nz|apply N1|exact Iz].
Qed.
Print Assumptions c87_estimate.

(** Whether there is an answer is decided as exactly as that: only within a margin of the
    boundary of the grid may it differ. *)
Theorem c87_answers V ssub (of : V -> b64) fl tri (res : b64) (g : grid V) N to_grid to_world rotate p :
  floors fl -> let r := B2R res in is_finite res = true -> bpow radix2 (-900) <= r <= bpow radix2 900 ->
  gwf g -> (g_nx g <= N)%Z -> (g_ny g <= N)%Z -> (g_nz g <= N)%Z -> (N <= 2 ^ 25)%Z ->
  let q := to_grid p in finite3 q -> fits r q ->
  let margin := IZR N * bpow radix2 (-50) * r in
  let within n c := margin <= B2R c <= IZR n * r - margin in
  let beyond n c := B2R c < - margin \/ IZR n * r + margin < B2R c in
  let E := estimate (double_query V ssub of fl tri) (double_field V ssub of fl tri g res to_grid to_world rotate) p in
  (within (g_nx g) (fst (fst q)) -> within (g_ny g) (snd (fst q)) -> within (g_nz g) (snd q) -> exists e, E = Answer e) /\
  (beyond (g_nx g) (fst (fst q)) \/ beyond (g_ny g) (snd (fst q)) \/ beyond (g_nz g) (snd q) -> E = Empty).
Proof.
  intros Hfl r Fr Hr W Nx Ny Nz HN q Fq Hq margin within beyond E.
  pose proof W as (Px & Py & Pz & _).
  assert (N1 : 1 <= IZR N <= 33554432).
  { change (2 ^ 25)%Z with 33554432%Z in HN. split; apply IZR_le; lia. }
  apply IZR_le in Nx, Ny, Nz.
  destruct (answers_double V ssub of fl tri res r (IZR N) Hfl (conj Fr eq_refl) Hr N1 g to_grid to_world rotate W
    (conj Nx (conj Ny Nz)) p Fq Hq) as (A1 & A2).
  assert (Em : margin = slack (IZR N) * r) by (unfold margin; now rewrite slack1).
  assert (Wi : forall n c, within n c -> slack (IZR N) * r <= B2R c <= (IZR n - slack (IZR N)) * r).
  { intros n c H. unfold within in H. rewrite Em in H. lra. }
  assert (Be : forall n c, beyond n c -> B2R c < - (slack (IZR N) * r) \/ (IZR n + slack (IZR N)) * r < B2R c).
  { intros n c H. unfold beyond in H. rewrite Em in H. destruct H; [left|right]; lra. }
  split.
  - intros H1 H2 H3. apply A1; now apply Wi.
  - intros H. apply A2. destruct H as [H|[H|H]]; [left|right; left|right; right]; now apply Be.
Qed.
Print Assumptions c87_answers.

(** An order of evaluation of the interpolation that is accurate enough. *)
Theorem c87_trilinear : interpolates (bpow radix2 (-41)) b64_trilinear.
Proof.
  replace (bpow radix2 (-41)) with (4096 * u53); [exact trilinear_near|].
  unfold u53. change 4096 with (bpow radix2 12). now rewrite <- bpow_plus.
Qed.
Print Assumptions c87_trilinear.

Lemma near_inside N r D : (1 <= N)%Z -> 0 < r -> D = 5 / 2 * IZR N * r ->
  D + r / 2 <= 3 * IZR N * r.
Proof.
  intros HN Hr ->. apply IZR_le in HN. assert (1 * r <= IZR N * r) by (apply Rmult_le_compat_r; lra). lra.
Qed.

Section Combine.
Variables (V : Type) (ssub : V -> V -> V) (of : V -> b64) (fl : b64 -> Z)
  (tri : b64 * b64 * b64 -> b64 * b64 * b64 -> list b64 -> b64 * b64 * b64 -> b64) (kappa : R).
Hypothesis Hfl : floors fl.
Hypothesis Htri : interpolates kappa tri.

Lemma combine (res : b64) (g : grid V) f (nx ny nz N : Z) filled (border : bool) eps a b to_grid to_world rotate p e :
  let r := B2R res in is_finite res = true -> bpow radix2 (-900) <= r <= bpow radix2 900 ->
  (0 < nx <= N)%Z -> (0 < ny <= N)%Z -> (0 < nz <= N)%Z -> (N <= 2 ^ 25)%Z -> 0 <= eps <= / 100 ->
  0 <= 2 * kappa + IZR N * bpow radix2 (-43) ->
  reals_of (fun v d => is_finite (of v) = true /\ d = B2R (of v)) g f -> gwf g ->
  g_nx f = nx -> g_ny f = ny -> g_nz f = nz ->
  accurate eps r nx ny nz filled border f ->
  (forall x, estimate real_query (real_field f r fst (fun v => v) (fun v => v)) (reals3 (to_grid p), 1) = Answer x ->
     clearance eps r nx ny nz filled border x a b (reals3 (to_grid p))) ->
  finite3 (to_grid p) -> let q := reals3 (to_grid p) in
  inside_axis r nx (fst (fst q)) -> inside_axis r ny (snd (fst q)) -> inside_axis r nz (snd q) ->
  estimate (double_query V ssub of fl tri) (double_field V ssub of fl tri g res to_grid to_world rotate) p = Answer e ->
  let t := 3 * IZR N * (2 * kappa + IZR N * bpow radix2 (-43)) * r in
  is_finite e = true /\ clearance eps r nx ny nz filled border (B2R e) (a + t) (b + t) q.
Proof using Hfl Htri.
  intros r Fr Hr Nx Ny Nz HN He Hk V0 W Fx Fy Fz Ac Cl Fq q Ix Iy Iz Ee t.
  pose proof V0 as (Wf & Gx & Gy & Gz & _).
  assert (Rp : 0 < r) by (pose proof (bpow_gt_0 radix2 (-900)); lra).
  set (D := 5 / 2 * IZR N * r).
  assert (Bd : forall i d, gget f i = Some d -> Rabs d <= D).
  { apply (stored_bound eps r nx ny nz filled border f N Rp He ltac:(lia) ltac:(lia) ltac:(lia) ltac:(lia) Fx Fy Fz Ac). }
  pose proof (near_inside N r D ltac:(lia) Rp eq_refl) as Dn.
  assert (HD : D + r / 2 <= bpow radix2 1000).
  { apply Rle_trans with (1 := Dn). apply Rle_trans with (bpow radix2 27 * bpow radix2 900).
    - apply Rmult_le_compat; [|lra| |easy].
      + apply Rmult_le_pos; [lra|]. apply IZR_le. lia.
      + change (bpow radix2 27) with (IZR 134217728). change (2 ^ 25)%Z with 33554432%Z in HN.
        rewrite <- mult_IZR. apply IZR_le. lia.
    - rewrite <- bpow_plus. apply bpow_le. lia. }
  set (p' := (q, 1)).
  assert (Hi : inside f r q) by (unfold inside; rewrite Fx, Fy, Fz; exact (conj Ix (conj Iy Iz))).
  assert (Ex : exists x, estimate real_query (real_field f r fst (fun v => v) (fun v => v)) p' = Answer x).
  { eexists. apply estimate_blend; [exact Rp|exact Wf|exact Hi]. }
  destruct Ex as (x & Ex).
  destruct (c87_estimate V ssub of fl tri kappa res g f N D to_grid to_world rotate fst (fun v => v) (fun v => v) p p' e x
    Hfl Htri Fr Hr W ltac:(lia) ltac:(lia) ltac:(lia) HN V0 Bd HD Fq eq_refl Ee Ex) as (Fe & Be).
  split; [exact Fe|]. apply clearance_shift with (e := x); [|exact (Cl x Ex)].
  apply Rle_trans with (1 := Be). unfold t. rewrite Rmult_assoc, (Rmult_comm (3 * IZR N)), Rmult_assoc.
  apply Rmult_le_compat_l; [exact Hk|]. fold r. lra.
Qed.
End Combine.

(** What a double estimate of a generated field says about the voxels of the map: stored as
    double ... *)
Theorem c87_clearance_double fl tri kappa (res oob : b64) nx ny nz N filled (border : bool) g to_grid to_world rotate p e :
  floors fl -> interpolates kappa tri -> 0 <= kappa ->
  let r := B2R res in is_finite res = true -> bpow radix2 (-900) <= r <= bpow radix2 900 ->
  (0 < nx <= N)%Z -> (0 < ny <= N)%Z -> (0 < nz <= N)%Z -> (N <= 2 ^ 25 - 2)%Z ->
  both_kinds nx ny nz filled border -> sdf_binary64 res oob true border nx ny nz filled = Some g ->
  finite3 (to_grid p) -> let q := reals3 (to_grid p) in
  inside_axis r nx (fst (fst q)) -> inside_axis r ny (snd (fst q)) -> inside_axis r nz (snd q) ->
  within_centres r nx (fst (fst q)) -> within_centres r ny (snd (fst q)) -> within_centres r nz (snd q) ->
  let A := double_query b64 b64_sub (fun v => v) fl tri in
  estimate A (double_field b64 b64_sub (fun v => v) fl tri g res to_grid to_world rotate) p = Answer e ->
  let eps := bpow radix2 (-51) in
  let t := 3 * IZR N * (2 * kappa + IZR N * bpow radix2 (-43)) * r in
  is_finite e = true /\
  clearance eps r nx ny nz filled border (B2R e) ((1 + eps) * (sqrt 3 * r) - r / 2 + t) (sqrt 3 / 2 * r + t) q.
Proof.
  intros Hfl Htri Hk r Fr Hr Nx Ny Nz HN Both E Fq q Ix Iy Iz Wx Wy Wz A Ee eps t.
  assert (HB : (B25 - 2 = 2 ^ 25 - 2)%Z) by reflexivity.
  assert (Mx : (0 < nx <= B25 - 2)%Z) by lia. assert (My : (0 < ny <= B25 - 2)%Z) by lia.
  assert (Mz : (0 < nz <= B25 - 2)%Z) by lia.
  destruct (finite_double res nx ny nz filled border Fr Mx My Mz Both oob g Hr E) as (W & Gx & Gy & Gz & Fin).
  destruct (reals_exist is_finite B2R g W Fin) as (f & V0).
  assert (P : bpow radix2 (-1022) <= r) by (apply Rle_trans with (bpow radix2 (-900)); [apply bpow_le; lia|apply Hr]).
  destruct (double_accurate res oob nx ny nz filled border g f Fr P Mx My Mz E V0) as (Ac & Wf & Fx & Fy & Fz).
  apply (combine b64 b64_sub (fun v => v) fl tri kappa Hfl Htri res g f nx ny nz N filled border eps _ _ to_grid to_world rotate p e
    Fr Hr Nx Ny Nz ltac:(lia)); try assumption.
  - split; [apply bpow_ge_0|]. unfold eps. cbn. lra.
  - apply Rplus_le_le_0_compat; [lra|]. apply Rmult_le_pos; [apply IZR_le; lia|apply bpow_ge_0].
  - intros x Ex. exact (c85_double res oob nx ny nz filled border g f fst (fun v => v) (fun v => v) _ x Fr P Mx My Mz E V0 Ex Wx Wy Wz).
Qed.
Print Assumptions c87_clearance_double.

(** ... and as float. *)
Theorem c87_clearance_float ssub fl tri kappa (res : b64) (oob : b32) nx ny nz N filled (border : bool) g to_grid to_world rotate p e :
  floors fl -> interpolates kappa tri -> 0 <= kappa ->
  let r := B2R res in is_finite res = true -> bpow radix2 (-126) <= r <= bpow radix2 90 ->
  (0 < nx <= N)%Z -> (0 < ny <= N)%Z -> (0 < nz <= N)%Z -> (N <= 2 ^ 25 - 2)%Z ->
  both_kinds nx ny nz filled border -> sdf_binary32 res oob true border nx ny nz filled = Some g ->
  finite3 (to_grid p) -> let q := reals3 (to_grid p) in
  inside_axis r nx (fst (fst q)) -> inside_axis r ny (snd (fst q)) -> inside_axis r nz (snd q) ->
  within_centres r nx (fst (fst q)) -> within_centres r ny (snd (fst q)) -> within_centres r nz (snd q) ->
  let A := double_query b32 ssub b64_of_b32 fl tri in
  estimate A (double_field b32 ssub b64_of_b32 fl tri g res to_grid to_world rotate) p = Answer e ->
  let eps := bpow radix2 (-23) in
  let t := 3 * IZR N * (2 * kappa + IZR N * bpow radix2 (-43)) * r in
  is_finite e = true /\
  clearance eps r nx ny nz filled border (B2R e) ((1 + eps) * (sqrt 3 * r) - r / 2 + t) (sqrt 3 / 2 * r + t) q.
Proof.
  intros Hfl Htri Hk r Fr Hr Nx Ny Nz HN Both E Fq q Ix Iy Iz Wx Wy Wz A Ee eps t.
  assert (HB : (B25 - 2 = 2 ^ 25 - 2)%Z) by reflexivity.
  assert (Mx : (0 < nx <= B25 - 2)%Z) by lia. assert (My : (0 < ny <= B25 - 2)%Z) by lia.
  assert (Mz : (0 < nz <= B25 - 2)%Z) by lia.
  destruct (finite_float res nx ny nz filled border Fr Mx My Mz Both oob g Hr E) as (W & Gx & Gy & Gz & Fin).
  destruct (reals_exist is_finite B2R g W Fin) as (f & V0).
  assert (Hr' : bpow radix2 (-900) <= r <= bpow radix2 900).
  { split; [apply Rle_trans with (bpow radix2 (-126))|apply Rle_trans with (bpow radix2 90)];
      try apply bpow_le; try apply Hr; lia. }
  destruct (float_accurate res oob nx ny nz filled border g f Fr (proj1 Hr) Mx My Mz E V0) as (Ac & Wf & Fx & Fy & Fz).
  apply (combine b32 ssub b64_of_b32 fl tri kappa Hfl Htri res g f nx ny nz N filled border eps _ _ to_grid to_world rotate p e
    Fr Hr' Nx Ny Nz ltac:(lia)); try assumption.
  - split; [apply bpow_ge_0|]. unfold eps. cbn. lra.
  - apply Rplus_le_le_0_compat; [lra|]. apply Rmult_le_pos; [apply IZR_le; lia|apply bpow_ge_0].
  - destruct V0 as (? & ? & ? & ? & V0). do 4 (split; [assumption|]). intros i v Gv. destruct (V0 i v Gv) as (d & Gd & Fv & Ev).
    destruct (of_b32_val v Fv) as (Fv' & Ev'). exists d. split; [exact Gd|]. split; [exact Fv'|]. now rewrite Ev'.
  - intros x Ex. exact (c85_float res oob nx ny nz filled border g f fst (fun v => v) (fun v => v) _ x Fr (proj1 Hr) Mx My Mz E V0 Ex Wx Wy Wz).
Qed.
Print Assumptions c87_clearance_float.

(** Two voxels of size 1, the first one filled, asked at (0.75, 0.5, 0.5): everything that is
    assumed above holds, and both fields answer. *)
Example c87_case : let filled c := (ix c =? 0)%Z in let fl := fun x : b64 => Zfloor (B2R x) in
  let res := b64_lit 1 0 in let q := (b64_lit 3 (-2), b64_lit 1 (-1), b64_lit 1 (-1)) in
  let id := fun v : b64 * b64 * b64 => v in
  floors fl /\ B2R res = 1 /\ both_kinds 2 1 1 filled false /\ finite3 q /\ fits 1 q /\
  reals3 q = (3 / 4, 1 / 2, 1 / 2) /\ within_centres 1 2 (3 / 4) /\ within_centres 1 1 (1 / 2) /\
  (forall oob, exists g e, sdf_binary64 res oob true false 2 1 1 filled = Some g /\
     estimate (double_query b64 b64_sub (fun v => v) fl b64_trilinear)
       (double_field b64 b64_sub (fun v => v) fl b64_trilinear g res fst id id) (q, res) = Answer e) /\
  (forall oob, exists g e, sdf_binary32 res oob true false 2 1 1 filled = Some g /\
     estimate (double_query b32 (fun u _ => u) b64_of_b32 fl b64_trilinear)
       (double_field b32 (fun u _ => u) b64_of_b32 fl b64_trilinear g res fst id id) (q, res) = Answer e).
Proof.
  intros filled fl res q id.
  assert (Hfl : floors fl) by (intros x _ _; reflexivity).
  destruct one_val as (F1 & E1). destruct half_val as (F2 & E2).
  assert (V3 : val (b64_lit 3 (-2)) (3 / 4)).
  { replace (3 / 4) with (3 * bpow radix2 (-2)) by (cbn; lra). apply lit_val; easy. }
  destruct V3 as (F3 & E3).
  assert (Fq : finite3 q) by now repeat split.
  assert (Rq : reals3 q = (3 / 4, 1 / 2, 1 / 2)) by (unfold reals3, q; cbn [fst snd]; now rewrite E2, E3).
  assert (B62 : 1 <= bpow radix2 62 * 1) by (rewrite Rmult_1_r; change 1 with (bpow radix2 0); apply bpow_le; lia).
  assert (Gq : fits 1 q).
  { unfold fits, q. cbn [fst snd]. rewrite E2, E3. repeat split; rewrite Rabs_pos_eq by lra; lra. }
  assert (Hr : bpow radix2 (-900) <= B2R res <= bpow radix2 900).
  { unfold res. rewrite E1. change 1 with (bpow radix2 0). split; apply bpow_le; lia. }
  assert (Hr32 : bpow radix2 (-126) <= B2R res <= bpow radix2 90).
  { unfold res. rewrite E1. change 1 with (bpow radix2 0). split; apply bpow_le; lia. }
  assert (Both : both_kinds 2 1 1 filled false).
  { left. split; [exists (0, 0, 0)%Z|exists (1, 0, 0)%Z]; split; try reflexivity; cbn; lia. }
  assert (Small : 2 * bpow radix2 (-50) * 1 <= 1 / 4) by (cbn; lra).
  assert (HB : B25 = 33554432%Z) by reflexivity.
  assert (An : forall V ssub (of : V -> b64) (g : grid V), gwf g -> g_nx g = 2%Z -> g_ny g = 1%Z -> g_nz g = 1%Z ->
    exists e, estimate (double_query V ssub of fl b64_trilinear)
       (double_field V ssub of fl b64_trilinear g res fst id id) (q, res) = Answer e).
  { intros V ssub of g W Gx Gy Gz.
    refine (proj1 (c87_answers V ssub of fl b64_trilinear res g 2 fst id id (q, res) Hfl F1 Hr W _ _ _ _ Fq _) _ _ _);
      cbn [fst snd]; unfold q, res in *; cbn [fst snd]; rewrite ?Gx, ?Gy, ?Gz, ?E1, ?E2, ?E3; try lia; try exact Gq; split; lra. }
  split; [exact Hfl|]. split; [exact E1|]. split; [exact Both|]. split; [exact Fq|]. split; [exact Gq|].
  split; [exact Rq|]. split; [right; lra|]. split; [now left|]. split.
  - intros oob. destruct (sdf_binary64_ok res F1 ltac:(unfold res; rewrite E1; lra) oob 2 1 1 filled false) as (g & E & W & Gx & Gy & Gz & _);
      try lia. destruct (An b64 b64_sub (fun v => v) g W Gx Gy Gz) as (e & Ee). now exists g, e.
  - intros oob. destruct (sdf_binary32_ok res F1 ltac:(unfold res; rewrite E1; lra)) with (oob := oob) (nx := 2%Z) (ny := 1%Z) (nz := 1%Z)
      (p := filled) (border := false) as (g & E & W & Gx & Gy & Gz & _); try lia.
    { apply Rlt_le_trans with (2 := proj1 Hr32). apply bpow_lt. lia. }
    destruct (An b32 (fun u _ => u) b64_of_b32 g W Gx Gy Gz) as (e & Ee). now exists g, e.
Qed.
