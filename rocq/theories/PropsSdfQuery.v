(** Queries of signed distance fields: properties C17-C21, C63-C65. *)
From Coq Require Import ZArith Reals List Bool Lia Lra Relations SpecFloat.
From Flocq Require Import Core.
From Verif Require Import Util Grid SdfQueryModel SdfQueryArith SdfQuerySpec SdfQueryProofs SdfEstimateProofs.
Import ListNotations.
Local Open Scope Z_scope.

(** A field of binary64 values in the frame of the world, voxels of size one. *)
Definition sf_one : sf := S754_finite false 4503599627370496 (-52).
Definition sf_two : sf := S754_finite false 4503599627370496 (-51).
Definition plain_field (g : grid sf) : qfield sf_query :=
  mkQField sf_query g sf_one sf_one fst (fun v => v) (fun v => v).
(** 1.0 / 10.0, the default step size multiplier. *)
Definition sf_tenth : sf := sf_div sf_one (sf_ofZ 10).

(** ** C17 *)

(** The coarse gradient answers for the stated cells only, in every arithmetic. *)
Theorem c17_answers (A : query_arith) (s : qfield A) i edges : gwf (s_grid A s) ->
  let valid := in_bounds (s_grid A s) i = true /\ (edges = true \/ strictly_inside (s_grid A s) i) in
  (valid -> exists g, grid_gradient A s i edges = Answer g /\ index_gradient A s i edges = Answer (s_rotate A s g)) /\
  (~ valid -> grid_gradient A s i edges = Empty /\ index_gradient A s i edges = Empty).
Proof.
  intros W valid. destruct (grid_gradient_total A s W i edges) as (H1 & H2). split; intros H.
  - destruct (H1 H) as (g & E). exists g. split; [easy|]. unfold index_gradient. now rewrite E.
  - rewrite (H2 H). split; [easy|]. unfold index_gradient. now rewrite (H2 H).
Qed.
Print Assumptions c17_answers.

(** Its components, in exact arithmetic. *)
Theorem c17_values g r to_grid to_world rotate i edges v : (0 < r)%R -> gwf g ->
  grid_gradient real_query (real_field g r to_grid to_world rotate) i edges = Answer v ->
  difference_gradient g r i v.
Proof. exact (grid_gradient_real g r to_grid to_world rotate i edges v). Qed.
Print Assumptions c17_values.

Example c17_case :
  let s := plain_field (mkGrid 3 2 1 (map sf_ofZ [1; 2; 3; 5; 8; 13])) in
  gwf (s_grid _ s) /\
  grid_gradient sf_query s (1, 0, 0) true = Answer (sf_div (sf_ofZ 7) sf_two, sf_two, sf_ofZ 0) /\
  grid_gradient sf_query s (0, 0, 0) true = Answer (sf_two, sf_one, sf_ofZ 0) /\
  grid_gradient sf_query s (1, 0, 0) false = Empty /\ grid_gradient sf_query s (3, 0, 0) true = Empty.
Proof. repeat split; vm_compute; reflexivity. Qed.

(** ** C18 *)

(** In every arithmetic an estimate exists for exactly the locations whose cell is in
    the grid. *)
Theorem c18_total (A : query_arith) (s : qfield A) p : gwf (s_grid A s) ->
  (in_bounds (s_grid A s) (location_index A s p) = true -> exists d, estimate A s p = Answer d) /\
  (in_bounds (s_grid A s) (location_index A s p) = false -> estimate A s p = Empty).
Proof. intros W. exact (estimate_total A s W p). Qed.
Print Assumptions c18_total.

(** In exact arithmetic, between the outermost cell centres, the estimate lies between
    the smallest and the largest corrected distance of the cells within one voxel.
    Missing: locations in the outer half of boundary voxels, where the claim fails;
    see the refutation. *)
Theorem c18_between_partial g r to_grid to_world rotate p m M e : (0 < r)%R -> gwf g ->
  estimate real_query (real_field g r to_grid to_world rotate) p = Answer e ->
  within_centres r (g_nx g) (fst (fst (to_grid p))) -> within_centres r (g_ny g) (snd (fst (to_grid p))) ->
  within_centres r (g_nz g) (snd (to_grid p)) ->
  (forall c d, gget g c = Some d -> near_cell r r c (to_grid p) -> m <= shifted r d <= M)%R ->
  (m <= e <= M)%R.
Proof.
  intros Hr W E Hx Hy Hz H. eapply (estimate_between g r to_grid to_world rotate Hr W p); eauto.
  - eapply estimate_answers; eauto.
  - intros c d Ed Hc. rewrite Rmult_1_l in Hc. eapply H; eauto.
Qed.
Print Assumptions c18_between_partial.

(** Everywhere in the grid it exceeds the range of the corrected distances of the
    cells within one and a half voxels by at most seven halves of that range. *)
Theorem c18_range_partial g r to_grid to_world rotate p m M e : (0 < r)%R -> gwf g ->
  estimate real_query (real_field g r to_grid to_world rotate) p = Answer e ->
  (forall c d, gget g c = Some d -> near_cell r (3 / 2 * r) c (to_grid p) -> m <= shifted r d <= M)%R ->
  (m - 7 / 2 * (M - m) <= e <= M + 7 / 2 * (M - m))%R.
Proof.
  intros Hr W E H. eapply (estimate_range g r to_grid to_world rotate Hr W p); eauto.
  eapply estimate_answers; eauto.
Qed.
Print Assumptions c18_range_partial.

(** At cell centres the estimate is the corrected distance of the cell. *)
Theorem c18_centre_partial g r to_grid to_world rotate i d : (0 < r)%R -> gwf g -> gget g i = Some d ->
  (forall v, to_grid (to_world v, 1%R) = v) ->
  estimate_index real_query (real_field g r to_grid to_world rotate) i = Answer (shifted r d).
Proof. intros Hr W Ed Ht. apply estimate_centre; auto. Qed.
Print Assumptions c18_centre_partial.

Definition plain_real (g : grid R) : qfield real_query := real_field g 1%R fst (fun v => v) (fun v => v).

(** Two voxels with distances 1 and 2: at a quarter of the first one the estimate is
    smaller than both corrected distances. *)
Theorem c18_extrapolation_refuted :
  exists (g : grid R) p e, gwf g /\ estimate real_query (plain_real g) p = Answer e /\
    inside g 1 (fst p) /\
    forall c d, gget g c = Some d -> (e < shifted 1 d)%R.
Proof.
  exists (mkGrid 2 1 1 [1; 2]%R), ((1 / 4, 1 / 2, 1 / 2)%R, 1%R), (1 / 4)%R.
  assert (W : gwf (mkGrid 2 1 1 [1; 2]%R)) by (repeat split; reflexivity).
  assert (I : inside (mkGrid 2 1 1 [1; 2]%R) 1 (1 / 4, 1 / 2, 1 / 2)%R).
  { repeat split; cbn [fst snd g_nx g_ny g_nz]; lra. }
  split; [exact W|]. split; [|split; [exact I|]].
  - unfold plain_real. rewrite estimate_blend; [|lra|exact W|exact I]. apply f_equal.
    unfold blend3, blend, voxels, lower_cell. cbn [g_nx g_ny g_nz fst snd Z.eqb Pos.eqb].
    replace (Z.max 0 (Z.min (2 - 2) (Zfloor (1 / 4 * / 1 - 1 / 2)))) with 0 by lia.
    unfold field_value. cbn [gget in_bounds in_bounds3 data_index data_index3].
    change (gget (mkGrid 2 1 1 [1%R; 2%R]) (0, 0, 0)) with (Some 1%R).
    change (gget (mkGrid 2 1 1 [1%R; 2%R]) (0 + 1, 0, 0)) with (Some 2%R).
    unfold shifted. destruct (Rle_dec 0 1), (Rle_dec 0 2); try lra. unfold lerp. lra.
  - intros [[x y] z] d E. pose proof (gget_in_bounds _ _ _ E) as Hb. rewrite in_bounds_iff in Hb. cbn in Hb.
    assert (y = 0) by lia. assert (z = 0) by lia. subst.
    assert (H : x = 0 \/ x = 1) by lia. unfold shifted.
    destruct H as [-> | ->]; cbn in E; assert (d = 1 \/ d = 2)%R by (inversion E; auto); destruct (Rle_dec 0 d); lra.
Qed.
Print Assumptions c18_extrapolation_refuted.

Example c18_case : let g := mkGrid 2 1 1 [1; 2]%R in
  gwf g /\ within_centres 1 (g_nx g) (3 / 4) /\ within_centres 1 (g_ny g) (1 / 8) /\
  (forall c d, gget g c = Some d -> near_cell 1 1 c (3 / 4, 1 / 8, 1 / 8)%R -> 1 / 2 <= shifted 1 d <= 3 / 2)%R.
Proof.
  split; [repeat split; reflexivity|]. split; [right; cbn; lra|]. split; [now left|].
  intros [[x y] z] d E _. pose proof (gget_in_bounds _ _ _ E) as Hb. rewrite in_bounds_iff in Hb. cbn in Hb.
  assert (y = 0) by lia. assert (z = 0) by lia. subst.
  assert (H : x = 0 \/ x = 1) by lia. unfold shifted.
  destruct H as [-> | ->]; cbn in E; assert (d = 1 \/ d = 2)%R by (inversion E; auto); destruct (Rle_dec 0 d); lra.
Qed.

(** ** C63 *)

(** The estimate is Lipschitz continuous in the location, with a constant given by the
    largest difference of corrected distances of face-adjacent cells. *)
Theorem c63_continuous g r to_grid to_world rotate D p q e f : (0 < r)%R -> gwf g -> (0 <= D)%R ->
  (forall i j a b, face_adjacent i j -> gget g i = Some a -> gget g j = Some b ->
     Rabs (shifted r b - shifted r a) <= D)%R ->
  estimate real_query (real_field g r to_grid to_world rotate) p = Answer e ->
  estimate real_query (real_field g r to_grid to_world rotate) q = Answer f ->
  (Rabs (f - e) <= 4 * D / r * taxicab (to_grid q) (to_grid p))%R.
Proof. intros Hr W. exact (estimate_lipschitz g r to_grid to_world rotate Hr W D p q e f). Qed.
Print Assumptions c63_continuous.

Example c63_case : let g := mkGrid 2 1 1 [1; 2]%R in gwf g /\
  (forall i j a b, face_adjacent i j -> gget g i = Some a -> gget g j = Some b ->
     Rabs (shifted 1 b - shifted 1 a) <= 1)%R.
Proof.
  split; [repeat split; reflexivity|]. intros [[x y] z] [[x' y'] z'] a b Hf Ea Eb.
  pose proof (gget_in_bounds _ _ _ Ea) as Hb. pose proof (gget_in_bounds _ _ _ Eb) as Hb'.
  rewrite in_bounds_iff in Hb, Hb'. cbn in Hb, Hb'. cbv [face_adjacent ix iy iz fst snd] in Hf.
  assert (x = 0) by lia. assert (x' = 1) by lia.
  assert (y = 0) by lia. assert (z = 0) by lia. assert (y' = 0) by lia. assert (z' = 0) by lia. subst.
  cbn in Ea, Eb. assert (a = 1)%R by (now inversion Ea). assert (b = 2)%R by (now inversion Eb). subst.
  unfold shifted. destruct (Rle_dec 0 1), (Rle_dec 0 2); try lra. apply Rabs_le. lra.
Qed.

(** ** C19 *)

(** Whatever the field and its arithmetic, the computation ends within as many steps
    per cell as there are cells, and the map is as described. *)
Theorem c19_local_extrema (A : query_arith) (s : qfield A) fuel :
  gwf (s_grid A s) -> g_total (s_grid A s) <= Z.of_nat fuel ->
  exists w, local_extrema A s fuel = RunDone w /\ extrema_of A s w.
Proof. intros W. exact (local_extrema_result A s W fuel). Qed.
Print Assumptions c19_local_extrema.

(** A corridor between two obstacles: its cells climb to the middle, the obstacles
    descend out of the grid. *)
Definition corridor : grid sf := mkGrid 5 1 1 (map sf_ofZ [-1; 1; 2; 1; -1]).

(** What is reported for a cell: a location or (None) infinity. *)
Definition reported (s : qfield sf_query) (i : idx) : option (option (sf * sf * sf)) :=
  match local_extrema sf_query s 5 with
  | RunDone w =>
    match gget w i with
    | Some (At c) => Some (Some c)
    | Some OffGrid => Some None
    | _ => None
    end
  | _ => None
  end.

Lemma reported_at s i c : reported s i = Some (Some c) ->
  exists w, local_extrema sf_query s 5 = RunDone w /\ gget w i = Some (@At sf_query c).
Proof.
  unfold reported. destruct (local_extrema sf_query s 5) as [| |w]; try easy.
  destruct (gget w i) as [[|c'|]|] eqn:E; try easy. intros H. exists w. split; [easy|]. congruence.
Qed.
Lemma reported_off s i : reported s i = Some None ->
  exists w, local_extrema sf_query s 5 = RunDone w /\ gget w i = Some OffGrid.
Proof.
  unfold reported. destruct (local_extrema sf_query s 5) as [| |w]; try easy.
  destruct (gget w i) as [[|c'|]|] eqn:E; try easy. intros _. exists w. now split.
Qed.

Example c19_case :
  let middle := Some (Some (sf_div (sf_ofZ 5) sf_two, sf_div sf_one sf_two, sf_div sf_one sf_two)) in
  gwf (s_grid _ (plain_field corridor)) /\
  map (reported (plain_field corridor)) (all_idx 5 1 1) = [Some None; middle; middle; middle; Some None].
Proof. split; [repeat split; reflexivity|]. vm_compute. reflexivity. Qed.

(** ** C20, C21 *)

(** A returned position has w = 1; it is the start if that is outside the grid, and
    otherwise its cell is in the grid and its estimated distance is not at most the
    requested minimum.  Missing: that the call neither throws nor runs forever; see
    the refutations. *)
Theorem c20_project_partial (A : query_arith) (s : qfield A) fuel p minimum multiplier q :
  project A s fuel p minimum multiplier = Some (Answer q) ->
  q_eqb A (snd q) (q_one A) = true /\
  (in_bounds (s_grid A s) (location_index A s p) = false -> q = p) /\
  (in_bounds (s_grid A s) (location_index A s p) = true ->
     in_bounds (s_grid A s) (location_index A s q) = true /\
     exists d, estimate A s q = Answer d /\ q_leb A d minimum = false).
Proof.
  assert (Hpos : forall p q, position_of A p = Answer q -> q = p /\ q_eqb A (snd q) (q_one A) = true).
  { intros p0 q0. unfold position_of. destruct (q_eqb A (snd p0) (q_one A)) eqn:E; [|easy].
    intros H. assert (p0 = q0) as -> by congruence. now split. }
  assert (Hin : forall p d, estimate A s p = Answer d -> in_bounds (s_grid A s) (location_index A s p) = true).
  { intros p0 d0. unfold estimate. now destruct (in_bounds _ _). }
  assert (Hloop : forall fuel margin max_step p d, estimate A s p = Answer d ->
    project_loop A s fuel minimum margin max_step p d = Some (Answer q) ->
    q_eqb A (snd q) (q_one A) = true /\ exists d, estimate A s q = Answer d /\ q_leb A d minimum = false).
  { clear p fuel. induction fuel as [|fuel IH]; intros margin max_step p d Ed; cbn [project_loop].
    - destruct (q_leb A d minimum) eqn:El; [easy|]. intros H. assert (H' : position_of A p = Answer q) by congruence.
      destruct (Hpos _ _ H') as (-> & Hw). split; [easy|]. now exists d.
    - destruct (q_leb A d minimum) eqn:El.
      + destruct (location_gradient A s p true) as [| |g]; try easy.
        destruct (q_ltb A _ _); [|easy]. cbn zeta.
        match goal with |- match ?e with _ => _ end = _ -> _ => destruct e as [| |d'] eqn:Ed' end; try easy.
        now apply IH.
      + intros H. assert (H' : position_of A p = Answer q) by congruence.
        destruct (Hpos _ _ H') as (-> & Hw). split; [easy|]. now exists d. }
  unfold project. destruct (in_bounds (s_grid A s) (location_index A s p)) eqn:Eb.
  - cbn zeta. destruct (estimate A s p) as [| |d] eqn:Ed; try easy. intros H.
    destruct (Hloop _ _ _ _ _ Ed H) as (Hw & d' & E1 & E2). split; [easy|]. split; [easy|]. intros _.
    split; [eapply Hin; eauto|]. now exists d'.
  - intros H. assert (H' : position_of A p = Answer q) by congruence.
    destruct (Hpos _ _ H') as (-> & Hw). split; [easy|]. now split.
Qed.
Print Assumptions c20_project_partial.

(** A position outside of the grid is returned as it is. *)
Theorem c20_outside (A : query_arith) (s : qfield A) fuel p minimum multiplier :
  in_bounds (s_grid A s) (location_index A s p) = false -> q_eqb A (snd p) (q_one A) = true ->
  project A s fuel p minimum multiplier = Some (Answer p).
Proof. intros B W. unfold project, position_of. now rewrite B, W. Qed.
Print Assumptions c20_outside.

(** An obstacle and two free voxels. *)
Definition wall : grid sf := mkGrid 3 1 1 (map sf_ofZ [-1; 1; 2]).
Definition half_sf : sf := S754_finite false 4503599627370496 (-53).

(** Beside [c20_outside]: a position ten units away from the three voxels. *)
Example c20_outside_case :
  let p := ((sf_ofZ 10, half_sf, half_sf), sf_one) in
  in_bounds (s_grid _ (plain_field wall)) (location_index sf_query (plain_field wall) p) = false /\
  q_eqb sf_query (snd p) (q_one sf_query) = true.
Proof. split; vm_compute; reflexivity. Qed.

(** With the default step size, asking for a distance of 10 throws instead of returning
    no position. *)
Theorem c20_throws_refuted :
  exists (s : qfield sf_query) p minimum fuel, gwf (s_grid _ s) /\
    in_bounds (s_grid _ s) (location_index sf_query s p) = true /\ snd p = sf_one /\
    project sf_query s fuel p minimum sf_tenth = Some Throws.
Proof.
  exists (plain_field wall), ((sf_two, half_sf, half_sf), sf_one), (sf_ofZ 10), 20%nat.
  split; [repeat split; reflexivity|]. split; [vm_compute; reflexivity|]. split; [reflexivity|].
  vm_compute. reflexivity.
Qed.
Print Assumptions c20_throws_refuted.

Lemma project_loop_step A s fuel minimum margin max_step p d g p' d' :
  q_leb A d minimum = true -> location_gradient A s p true = Answer g ->
  q_ltb A (q_mul A (s_res A s) (q_quarter A)) (q_norm A (qx A g) (qy A g) (qz A g)) = true ->
  (let far := q_sub A margin d in
   let step := if q_ltb A far max_step then far else max_step in
   (qmap2 A (q_add A) (fst p) (qmap A (fun c => q_mul A (q_div A c (q_norm A (qx A g) (qy A g) (qz A g))) step) g), snd p)) = p' ->
  estimate A s p' = Answer d' ->
  project_loop A s (S fuel) minimum margin max_step p d = project_loop A s fuel minimum margin max_step p' d'.
Proof. intros H1 H2 H3 H4 H5. cbn [project_loop]. rewrite H1, H2, H3. cbn zeta in *. now rewrite H4, H5. Qed.

(** Two free voxels between obstacles, default step size: asking for a distance of 1,
    twice what there is, never returns; the position alternates between two points. *)
Definition passage : grid sf := mkGrid 4 1 1 (map sf_ofZ [-1; 1; 1; -1]).

Theorem c20_forever_refuted :
  exists (s : qfield sf_query) p minimum, gwf (s_grid _ s) /\
    in_bounds (s_grid _ s) (location_index sf_query s p) = true /\ snd p = sf_one /\
    forall fuel, project sf_query s fuel p minimum sf_tenth = None.
Proof.
  set (p0 := ((sf_two, half_sf, half_sf), sf_one) : qvec4 sf_query).
  set (p1 := ((sf_sub sf_two sf_tenth, half_sf, half_sf), sf_one) : qvec4 sf_query).
  exists (plain_field passage), p0, sf_one.
  split; [repeat split; reflexivity|]. split; [vm_compute; reflexivity|]. split; [reflexivity|].
  set (margin := sf_add sf_one (sf_mul (sf_mul sf_one sf_tenth) (q_milli sf_query))).
  set (max_step := sf_mul sf_one sf_tenth).
  assert (S0 : forall fuel, project_loop sf_query (plain_field passage) (S fuel) sf_one margin max_step p0 half_sf
      = project_loop sf_query (plain_field passage) fuel sf_one margin max_step p1 half_sf).
  { intros fuel. apply (project_loop_step sf_query _ fuel sf_one margin max_step p0 half_sf
      (SFopp sf_one, S754_zero false, S754_zero false) p1 half_sf); vm_compute; reflexivity. }
  assert (S1 : forall fuel, project_loop sf_query (plain_field passage) (S fuel) sf_one margin max_step p1 half_sf
      = project_loop sf_query (plain_field passage) fuel sf_one margin max_step p0 half_sf).
  { intros fuel. apply (project_loop_step sf_query _ fuel sf_one margin max_step p1 half_sf
      (sf_one, S754_zero false, S754_zero false) p0 half_sf); vm_compute; reflexivity. }
  assert (Hloop : forall fuel, project_loop sf_query (plain_field passage) fuel sf_one margin max_step p0 half_sf = None /\
                         project_loop sf_query (plain_field passage) fuel sf_one margin max_step p1 half_sf = None).
  { induction fuel as [|fuel (IH0 & IH1)].
    - split; vm_compute; reflexivity.
    - rewrite S0, S1. now split. }
  intros fuel. unfold project.
  assert (Hb : in_bounds (s_grid sf_query (plain_field passage)) (location_index sf_query (plain_field passage) p0) = true)
    by (vm_compute; reflexivity).
  assert (He : estimate sf_query (plain_field passage) p0 = Answer half_sf) by (vm_compute; reflexivity).
  rewrite Hb, He. exact (proj1 (Hloop fuel)).
Qed.
Print Assumptions c20_forever_refuted.

(** Out of collision it is reached: start inside the obstacle. *)
Example c20_case :
  match project sf_query (plain_field wall) 20 ((half_sf, half_sf, half_sf), sf_one) (S754_zero false) sf_tenth with
  | Some (Answer q) => location_index sf_query (plain_field wall) q = (1, 0, 0)
  | _ => False
  end.
Proof. vm_compute. reflexivity. Qed.

(** C21: positions returned by the library have w = 1 (c20_project_partial), as have
    positions constructed from vectors.  Missing: positions constructed from three
    coordinates, which have w = 0. *)
Theorem c21_points_partial (A : query_arith) (s : qfield A) :
  (forall fuel p minimum multiplier q,
     project A s fuel p minimum multiplier = Some (Answer q) -> q_eqb A (snd q) (q_one A) = true) /\
  (forall p q, position_of A p = Answer q -> q = p /\ q_eqb A (snd q) (q_one A) = true).
Proof.
  split.
  - intros fuel p minimum multiplier q H. now apply c20_project_partial in H.
  - intros p q. unfold position_of. destruct (q_eqb A (snd p) (q_one A)) eqn:E; [|easy].
    intros H. assert (p = q) as -> by congruence. now split.
Qed.
Print Assumptions c21_points_partial.

Theorem c21_coordinates_refuted :
  exists x y z q, position_of_xyz sf_query x y z = Answer q /\ SFeqb (snd q) sf_one = false /\
    position_of sf_query q = Throws.
Proof. exists sf_one, sf_one, sf_one. eexists. split; [reflexivity|]. split; vm_compute; reflexivity. Qed.
Print Assumptions c21_coordinates_refuted.

(** ** C64 *)

(** Moving a grid without rotating it leaves its local extrema map as it is.  Missing:
    rotations, for which this fails; see the refutation. *)
Theorem c64_translation_partial (A : query_arith) (g : grid (qS A)) res inv rotate
    (to_grid to_grid' : qvec4 A -> qvec A) (to_world to_world' : qvec A -> qvec A) fuel :
  local_extrema A (mkQField A g res inv to_grid to_world rotate) fuel =
  local_extrema A (mkQField A g res inv to_grid' to_world' rotate) fuel.
Proof. reflexivity. Qed.
Print Assumptions c64_translation_partial.

(** The quarter turn about the z axis. *)
Definition quarter_turn (v : qvec sf_query) : qvec sf_query :=
  (SFopp (snd (fst v)), fst (fst v), snd v).
Definition quarter_turn_back (v : qvec4 sf_query) : qvec sf_query :=
  (snd (fst (fst v)), SFopp (fst (fst (fst v))), snd (fst v)).

(** A cell of the corridor climbs to the middle of it; in the same grid turned by 90
    degrees it is reported to leave the grid. *)
Theorem c64_rotation_refuted :
  exists (g : grid sf) (turn : qvec sf_query -> qvec sf_query) (back : qvec4 sf_query -> qvec sf_query) i w w' c,
    gwf g /\ (forall v, back (turn v, sf_one) = v) /\
    local_extrema sf_query (plain_field g) 5 = RunDone w /\
    local_extrema sf_query (mkQField sf_query g sf_one sf_one back turn turn) 5 = RunDone w' /\
    gget w i = Some (At c) /\ gget w' i = Some OffGrid.
Proof.
  set (turned := mkQField sf_query corridor sf_one sf_one quarter_turn_back quarter_turn quarter_turn).
  assert (W : gwf corridor) by (repeat split; reflexivity).
  assert (H1 : reported (plain_field corridor) (1, 0, 0) =
    Some (Some (sf_div (sf_ofZ 5) sf_two, sf_div sf_one sf_two, sf_div sf_one sf_two))) by (vm_compute; reflexivity).
  assert (H2 : reported turned (1, 0, 0) = Some None) by (vm_compute; reflexivity).
  destruct (reported_at _ _ _ H1) as (w & E & Ew). destruct (reported_off _ _ H2) as (w' & E' & Ew').
  clear H1 H2. exists corridor, quarter_turn, quarter_turn_back, (1, 0, 0), w, w'. eexists.
  split; [exact W|].
  split. { intros [[x y] z]. unfold quarter_turn, quarter_turn_back. cbn [fst snd]. destruct y as [[]|[]| |[]]; reflexivity. }
  split; [exact E|]. split; [exact E'|]. split; [exact Ew|exact Ew'].
Qed.
Print Assumptions c64_rotation_refuted.

(** ** C65 *)

(** In a grid that is not rotated and at least twice the window wide, the fine gradient
    answers for every location inside, its components are difference quotients of the
    estimate, and they are bounded by the bound of C63.  Missing: larger windows, for
    which the call throws, and the half window of the documentation. *)
Theorem c65_fine_gradient_partial g r to_grid to_world rotate (o : R * R * R) x y z window D :
  (0 < r)%R -> gwf g ->
  (forall a b c, to_grid (a, b, c, 1) = (a - fst (fst o), b - snd (fst o), c - snd o))%R ->
  inside g r (to_grid (x, y, z, 1)%R) -> (window <> 0)%R ->
  (2 * Rabs window <= r * IZR (g_nx g))%R -> (2 * Rabs window <= r * IZR (g_ny g))%R ->
  (2 * Rabs window <= r * IZR (g_nz g))%R -> (0 <= D)%R ->
  (forall i j a b, face_adjacent i j -> gget g i = Some a -> gget g j = Some b ->
     Rabs (shifted r b - shifted r a) <= D)%R ->
  let s := real_field g r to_grid to_world rotate in
  exists gx gy gz, fine_gradient real_query s (x, y, z) window = Answer (gx, gy, gz) /\
    slope (fun t => estimate real_query s (t, y, z, 1%R)) x (Rabs window) gx /\
    slope (fun t => estimate real_query s (x, t, z, 1%R)) y (Rabs window) gy /\
    slope (fun t => estimate real_query s (x, y, t, 1%R)) z (Rabs window) gz /\
    (Rabs gx <= 4 * D / r)%R /\ (Rabs gy <= 4 * D / r)%R /\ (Rabs gz <= 4 * D / r)%R.
Proof.
  intros Hr W Ht Hi Hw Bx By Bz HD HA s.
  destruct (fine_gradient_slopes g r to_grid to_world rotate Hr W o x y z window Ht Hi Hw Bx By Bz)
    as (gx & gy & gz & E & Sx & Sy & Sz).
  exists gx, gy, gz. split; [exact E|]. split; [exact Sx|]. split; [exact Sy|]. split; [exact Sz|].
  assert (HB : forall (F : R -> qvec4 real_query) t w c,
    (forall a b, taxicab (to_grid (F b)) (to_grid (F a)) = Rabs (b - a)) ->
    slope (fun t => estimate real_query s (F t)) t w c -> (Rabs c <= 4 * D / r)%R).
  { intros F t w c HF (a & b & ea & eb & Ea & Eb & Hab & _ & _ & ->).
    pose proof (estimate_lipschitz g r to_grid to_world rotate Hr W D _ _ _ _ HD HA Ea Eb) as H.
    rewrite HF, (Rabs_pos_eq (b - a)) in H by lra.
    unfold Rdiv at 1. rewrite Rabs_mult, Rabs_inv, (Rabs_pos_eq (b - a)) by lra.
    apply Rmult_le_reg_r with (b - a)%R; [lra|]. rewrite Rmult_assoc, Rinv_l by lra. lra. }
  assert (T0 : forall u v k, (Rabs (u - k - (v - k)) = Rabs (u - v))%R) by (intros; f_equal; ring).
  assert (T1 : forall u k, (Rabs (u - k - (u - k)) = 0)%R) by (intros; rewrite Rminus_eq_0; apply Rabs_R0).
  split; [|split].
  - apply (HB (fun t => (t, y, z, 1%R)) x (Rabs window) gx); [|exact Sx].
    intros a b. rewrite !Ht. unfold taxicab. cbn [fst snd]. rewrite (T0 b a (fst (fst o))), (T1 y), (T1 z). lra.
  - apply (HB (fun t => (x, t, z, 1%R)) y (Rabs window) gy); [|exact Sy].
    intros a b. rewrite !Ht. unfold taxicab. cbn [fst snd]. rewrite (T0 b a (snd (fst o))), (T1 x), (T1 z). lra.
  - apply (HB (fun t => (x, y, t, 1%R)) z (Rabs window) gz); [|exact Sz].
    intros a b. rewrite !Ht. unfold taxicab. cbn [fst snd]. rewrite (T0 b a (snd o)), (T1 x), (T1 y). lra.
Qed.
Print Assumptions c65_fine_gradient_partial.

(** A map of one layer and a window of one voxel: the call throws. *)
Theorem c65_one_layer_refuted :
  exists (s : qfield sf_query) v window, gwf (s_grid _ s) /\
    in_bounds (s_grid _ s) (location_index sf_query s (v, sf_one)) = true /\
    window = s_res _ s /\ fine_gradient sf_query s v window = Throws.
Proof.
  exists (plain_field (gconst 3 3 1 sf_one)), (sf_two, sf_two, half_sf), sf_one.
  split; [apply gconst_wf; lia|]. split; [vm_compute; reflexivity|]. split; [reflexivity|].
  vm_compute. reflexivity.
Qed.
Print Assumptions c65_one_layer_refuted.

(** The documentation promises estimates half the window size to either side; the code
    goes the whole size, which gives another slope. *)
Theorem c65_half_window_refuted :
  exists (s : qfield sf_query) x y z window v em ep, gwf (s_grid _ s) /\
    fine_gradient sf_query s (x, y, z) window = Answer v /\
    estimate sf_query s (sf_sub x (sf_div window sf_two), y, z, sf_one) = Answer em /\
    estimate sf_query s (sf_add x (sf_div window sf_two), y, z, sf_one) = Answer ep /\
    SFeqb (fst (fst v)) (sf_div (sf_sub ep em) window) = false.
Proof.
  set (q := fun n => sf_div (sf_ofZ n) (sf_ofZ 4)).
  exists (plain_field (gtab 4 2 2 (fun i => sf_ofZ (nth (Z.to_nat (ix i)) [1; 4; 8; 9] 0)))),
    (q 7), sf_one, sf_one, sf_one, (q 13, S754_zero false, S754_zero false), (q 11), (q 26).
  split; [repeat split; reflexivity|].
  split; [vm_compute; reflexivity|]. split; [vm_compute; reflexivity|]. split; vm_compute; reflexivity.
Qed.
Print Assumptions c65_half_window_refuted.

Example c65_case : let g := gconst 3 3 3 1%R in
  gwf g /\ inside g 1 (3 / 2, 3 / 2, 3 / 2)%R /\ (2 * Rabs 1 <= 1 * IZR (g_nz g))%R /\
  (forall i j a b, face_adjacent i j -> gget g i = Some a -> gget g j = Some b ->
     Rabs (shifted 1 b - shifted 1 a) <= 0)%R.
Proof.
  split; [apply gconst_wf; lia|]. split; [repeat split; cbn [fst snd g_nx g_ny g_nz gconst]; lra|].
  split; [rewrite Rabs_R1; cbn [g_nz gconst]; lra|]. intros i j a b _ Ea Eb. rewrite gget_gconst in Ea, Eb.
  assert (a = 1)%R by (destruct (in_bounds3 3 3 3 i); congruence).
  assert (b = 1)%R by (destruct (in_bounds3 3 3 3 j); congruence). subst.
  rewrite Rminus_eq_0, Rabs_R0. lra.
Qed.
