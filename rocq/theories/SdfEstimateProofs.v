(** Gradients and distance estimates of signed distance fields in exact arithmetic. *)
From Coq Require Import ZArith Reals List Bool Lia Lra ZifyBool.
From Flocq Require Import Core.
From Verif Require Import Util Grid SdfQueryModel SdfQueryArith SdfQuerySpec SdfQueryProofs.
Import ListNotations.
Local Open Scope Z_scope.

(** ** Coarse gradient *)

Lemma edge_quotient g r tg tw ro n hi lo f v :
  (0 < r)%R -> 0 <= n -> in_bounds g hi = true -> in_bounds g lo = true -> gwf g ->
  edge_axis real_query (real_field g r tg tw ro) n hi lo f = Answer v ->
  exists c, quotient g r n hi lo c /\ f c = Answer v.
Proof using.
  intros Hr Hn Hh Hl W E. destruct (gget_some g hi W Hh) as (a & Ea). destruct (gget_some g lo W Hl) as (b & Eb).
  unfold edge_axis in E. cbn -[IZR Rltb] in E. unfold Rltb in E.
  destruct (Rlt_dec 0 (IZR n * r)) as [Hp|Hp].
  - rewrite Ea, Eb in E. cbn [stored] in E. eexists. split; [|exact E].
    assert (n <> 0) by (intros ->; rewrite Rmult_0_l in Hp; lra).
    exists a, b. split; [easy|]. split; [easy|]. split; [|lia]. intros _. unfold Rdiv. now rewrite Rmult_1_l.
  - exists 0%R. split; [|exact E]. exists a, b. split; [easy|]. split; [easy|]. split; [|easy].
    intros Hn'. exfalso. apply Hp. apply Rmult_lt_0_compat; [now apply IZR_lt|easy].
Qed.

Lemma central_quotient g r tg tw ro hi lo f v :
  (0 < r)%R -> in_bounds g hi = true -> in_bounds g lo = true -> gwf g ->
  central real_query (real_field g r tg tw ro) hi lo f = Answer v ->
  exists c, quotient g r 2 hi lo c /\ f c = Answer v.
Proof using.
  intros Hr Hh Hl W E. destruct (gget_some g hi W Hh) as (a & Ea). destruct (gget_some g lo W Hl) as (b & Eb).
  unfold central in E. cbn in E. rewrite Ea, Eb in E. cbn [stored] in E. eexists. split; [|exact E].
  exists a, b. split; [easy|]. split; [easy|]. split; [|lia]. intros _. unfold Rdiv. now rewrite Rmult_1_l.
Qed.

Lemma grid_gradient_real g r tg tw ro i edges v : (0 < r)%R -> gwf g ->
  grid_gradient real_query (real_field g r tg tw ro) i edges = Answer v -> difference_gradient g r i v.
Proof using.
  intros Hr W E. destruct i as [[x y] z]. unfold grid_gradient in E. cbn [s_grid real_field] in E.
  change (qS real_query) with R in E.
  destruct (in_bounds g (x, y, z)) eqn:Hi; [|discriminate].
  rewrite in_bounds_iff in Hi.
  assert (IB : forall a b c, 0 <= a < g_nx g -> 0 <= b < g_ny g -> 0 <= c < g_nz g -> in_bounds g (a, b, c) = true)
    by (intros; apply in_bounds_iff; lia).
  destruct (_ && _) eqn:Hin in E.
  - apply central_quotient in E; [|easy|apply IB; lia|apply IB; lia|easy]. destruct E as (gx & Qx & E).
    apply central_quotient in E; [|easy|apply IB; lia|apply IB; lia|easy]. destruct E as (gy & Qy & E).
    apply central_quotient in E; [|easy|apply IB; lia|apply IB; lia|easy]. destruct E as (gz & Qz & E).
    inversion E. subst v. clear E. unfold difference_gradient, before, beyond.
    replace (Z.min (g_nx g - 1) (x + 1)) with (x + 1) by lia.
    replace (Z.min (g_ny g - 1) (y + 1)) with (y + 1) by lia.
    replace (Z.min (g_nz g - 1) (z + 1)) with (z + 1) by lia.
    replace (Z.max 0 (x - 1)) with (x - 1) by lia.
    replace (Z.max 0 (y - 1)) with (y - 1) by lia.
    replace (Z.max 0 (z - 1)) with (z - 1) by lia.
    replace (x + 1 - (x - 1)) with 2 by lia. replace (y + 1 - (y - 1)) with 2 by lia.
    replace (z + 1 - (z - 1)) with 2 by lia. now split.
  - destruct edges; [|discriminate].
    apply edge_quotient in E; [|easy|lia|apply IB; lia|apply IB; lia|easy]. destruct E as (gx & Qx & E).
    apply edge_quotient in E; [|easy|lia|apply IB; lia|apply IB; lia|easy]. destruct E as (gy & Qy & E).
    apply edge_quotient in E; [|easy|lia|apply IB; lia|apply IB; lia|easy]. destruct E as (gz & Qz & E).
    inversion E. subst v. clear E. now split.
Qed.

(** ** Interpolation along one axis *)

Local Open Scope R_scope.

(** The lower of the two cells used at coordinate [u] (in voxels). *)
Definition lower_cell (n : Z) (u : R) : Z := Z.max 0 (Z.min (n - 2) (Zfloor (u - 1 / 2))).

Definition blend (n : Z) (f : Z -> R) (u : R) : R :=
  if (n =? 1)%Z then f 0%Z
  else lerp (u - IZR (lower_cell n u) - 1 / 2) (f (lower_cell n u)) (f (lower_cell n u + 1)%Z).

Lemma Zfloor_spec x k : Zfloor x = k <-> IZR k <= x < IZR k + 1.
Proof using.
  split.
  - intros <-. split; [apply Zfloor_lb|apply Zfloor_ub].
  - intros H. apply Zfloor_imp. rewrite plus_IZR. exact H.
Qed.

Lemma axis_pair n u off : (0 <= Zfloor u < n)%Z -> (0 <= off <-> 0 <= u - (IZR (Zfloor u) + 1 / 2)) ->
  axis_indices real_query (Zfloor u) n off =
  if (n =? 1)%Z then (0%Z, 0%Z) else (lower_cell n u, (lower_cell n u + 1)%Z).
Proof using.
  intros Hn Ho. unfold axis_indices, lower_cell. cbn -[Z.leb Z.ltb Z.eqb]. unfold Rleb.
  pose proof (Zfloor_lb u) as Hl. pose proof (Zfloor_ub u) as Hu.
  destruct (Rle_dec 0 off) as [Hp|Hp].
  - assert (Zfloor (u - 1 / 2) = Zfloor u) as -> by (apply Zfloor_spec; lra).
    destruct (n <=? Zfloor u + 1)%Z eqn:E1; destruct (n =? 1)%Z eqn:E2;
      [destruct (Zfloor u - 1 <? 0)%Z eqn:E3; apply f_equal2; lia
      |destruct (Zfloor u - 1 <? 0)%Z eqn:E3; apply f_equal2; lia
      |apply f_equal2; lia|apply f_equal2; lia].
  - assert (Zfloor (u - 1 / 2) = Zfloor u - 1)%Z as -> by (apply Zfloor_spec; rewrite minus_IZR; lra).
    destruct (Zfloor u - 1 <? 0)%Z eqn:E3; destruct (n =? 1)%Z eqn:E2;
      [destruct (n <=? Zfloor u + 1)%Z eqn:E1; apply f_equal2; lia
      |destruct (n <=? Zfloor u + 1)%Z eqn:E1; apply f_equal2; lia
      |apply f_equal2; lia|apply f_equal2; lia].
Qed.

(** The position within the cell pair, for a coordinate inside the axis. *)
Lemma lower_cell_offset n u : (1 < n)%Z -> 0 <= u < IZR n ->
  (0 <= lower_cell n u <= n - 2)%Z /\
  -1 / 2 <= u - IZR (lower_cell n u) - 1 / 2 < 3 / 2 /\
  (1 / 2 <= u <= IZR n - 1 / 2 -> 0 <= u - IZR (lower_cell n u) - 1 / 2 <= 1).
Proof using.
  intros Hn Hu. unfold lower_cell. set (k := Zfloor (u - 1 / 2)).
  pose proof (Zfloor_lb (u - 1 / 2)) as Hl. pose proof (Zfloor_ub (u - 1 / 2)) as Hh. fold k in Hl, Hh.
  assert (Hk0 : (-1 <= k)%Z) by (apply Zfloor_lub; simpl; lra).
  assert (Hk1 : (k < n)%Z) by (apply lt_IZR; lra).
  split; [lia|]. destruct (Z_lt_le_dec k 0) as [Hk|Hk].
  - assert (k = -1)%Z as E by lia. rewrite E in *.
    replace (Z.max 0 (Z.min (n - 2) (-1))) with 0%Z by lia. change (IZR (-1)) with (-1) in *. lra.
  - destruct (Z_lt_le_dec (n - 2) k) as [Hk'|Hk'].
    + assert (E : (k = n - 1)%Z) by lia. replace (Z.max 0 (Z.min (n - 2) k)) with (n - 2)%Z by lia.
      rewrite E in Hl, Hh. rewrite minus_IZR in *. change (IZR 2) with 2. lra.
    + replace (Z.max 0 (Z.min (n - 2) k)) with k by lia. lra.
Qed.

Lemma lerp_same t a : lerp t a a = a.
Proof using. unfold lerp. ring. Qed.

Lemma lerp_between t a b m M : 0 <= t <= 1 -> m <= a <= M -> m <= b <= M -> m <= lerp t a b <= M.
Proof using.
  intros Ht Ha Hb. unfold lerp. replace (a + (b - a) * t) with (a * (1 - t) + b * t) by ring.
  split.
  - replace m with (m * (1 - t) + m * t) by ring. apply Rplus_le_compat; apply Rmult_le_compat_r; lra.
  - replace M with (M * (1 - t) + M * t) by ring. apply Rplus_le_compat; apply Rmult_le_compat_r; lra.
Qed.

Lemma lerp_abs t a b B : -1 / 2 <= t <= 3 / 2 -> Rabs a <= B -> Rabs b <= B -> Rabs (lerp t a b) <= 2 * B.
Proof using.
  intros Ht Ha Hb. unfold lerp. replace (a + (b - a) * t) with ((1 - t) * a + t * b) by ring.
  eapply Rle_trans; [apply Rabs_triang|]. rewrite !Rabs_mult.
  assert (HB : 0 <= B) by (pose proof (Rabs_pos a); lra).
  assert (H : Rabs (1 - t) + Rabs t <= 2) by (unfold Rabs; destruct (Rcase_abs (1 - t)), (Rcase_abs t); lra).
  apply Rle_trans with (Rabs (1 - t) * B + Rabs t * B).
  - apply Rplus_le_compat; apply Rmult_le_compat_l; try apply Rabs_pos; assumption.
  - rewrite <- Rmult_plus_distr_r. apply Rmult_le_compat_r; lra.
Qed.

Lemma blend_between n f u m M : (1 <= n)%Z -> 0 <= u < IZR n ->
  (n = 1%Z \/ 1 / 2 <= u <= IZR n - 1 / 2) ->
  (forall k, (0 <= k < n)%Z -> Rabs (IZR k + 1 / 2 - u) <= 1 -> m <= f k <= M) ->
  m <= blend n f u <= M.
Proof using.
  intros Hn Hu Hc Hf. unfold blend. destruct (n =? 1)%Z eqn:E.
  - assert (n = 1%Z) by lia. subst n. apply Hf; [lia|]. simpl in *. apply Rabs_le. lra.
  - assert (1 < n)%Z as Hn1 by lia. destruct (lower_cell_offset n u Hn1 Hu) as (H1 & _ & H2).
    destruct Hc as [Hc|Hc]; [lia|]. specialize (H2 Hc). apply lerp_between; [easy| |];
      apply Hf; try lia; apply Rabs_le; [|rewrite plus_IZR; change (IZR 1) with 1]; lra.
Qed.

Lemma blend_abs n f u B : (1 <= n)%Z -> 0 <= u < IZR n ->
  (forall k, (0 <= k < n)%Z -> Rabs (IZR k + 1 / 2 - u) <= 3 / 2 -> Rabs (f k) <= B) ->
  Rabs (blend n f u) <= 2 * B.
Proof using.
  intros Hn Hu Hf. unfold blend. destruct (n =? 1)%Z eqn:E.
  - assert (n = 1%Z) by lia. subst n. simpl in Hu.
    assert (H : Rabs (f 0%Z) <= B) by (apply Hf; [lia|apply Rabs_le; simpl; lra]).
    pose proof (Rabs_pos (f 0%Z)). lra.
  - assert (1 < n)%Z as Hn1 by lia. destruct (lower_cell_offset n u Hn1 Hu) as (H1 & H2 & _).
    apply lerp_abs; [lra| |]; apply Hf; try lia; apply Rabs_le; [|rewrite plus_IZR; change (IZR 1) with 1]; lra.
Qed.

Lemma blend_minus n f g u : blend n f u - blend n g u = blend n (fun k => f k - g k) u.
Proof using. unfold blend. destruct (n =? 1)%Z; [easy|]. unfold lerp. ring. Qed.

Lemma blend_const n c u : blend n (fun _ => c) u = c.
Proof using. unfold blend. destruct (n =? 1)%Z; [easy|]. apply lerp_same. Qed.

Lemma blend_ext n f g u : (1 <= n)%Z -> 0 <= u < IZR n ->
  (forall k, (0 <= k < n)%Z -> f k = g k) -> blend n f u = blend n g u.
Proof using.
  intros Hn Hu Hf. unfold blend. destruct (n =? 1)%Z eqn:E; [apply Hf; lia|].
  assert (1 < n)%Z as Hn1 by lia. destruct (lower_cell_offset n u Hn1 Hu) as (H1 & _).
  now rewrite !Hf by lia.
Qed.

Lemma telescope f D : forall (m : nat) k, (forall j, (k <= j < k + Z.of_nat m)%Z -> Rabs (f (j + 1)%Z - f j) <= D) ->
  Rabs (f (k + Z.of_nat m)%Z - f k) <= D * INR m.
Proof using.
  induction m as [|m IH]; intros k H.
  - rewrite Z.add_0_r, Rminus_eq_0, Rabs_R0. simpl. lra.
  - replace (k + Z.of_nat (S m))%Z with (k + Z.of_nat m + 1)%Z by lia.
    assert (H1 := IH k ltac:(intros j Hj; apply H; lia)).
    assert (H2 := H (k + Z.of_nat m)%Z ltac:(lia)). rewrite S_INR.
    replace (f (k + Z.of_nat m + 1)%Z - f k)
      with (f (k + Z.of_nat m + 1)%Z - f (k + Z.of_nat m)%Z + (f (k + Z.of_nat m)%Z - f k)) by ring.
    eapply Rle_trans; [apply Rabs_triang|]. lra.
Qed.

Lemma lerp_left t a b : lerp t a b - a = (b - a) * t.
Proof using. unfold lerp. ring. Qed.
Lemma lerp_right t a b : b - lerp t a b = (b - a) * (1 - t).
Proof using. unfold lerp. ring. Qed.

Lemma blend_lipschitz_le n f D u v : (1 <= n)%Z -> 0 <= D -> 0 <= u -> u <= v -> v < IZR n ->
  (forall k, (0 <= k)%Z -> (k + 1 < n)%Z -> Rabs (f (k + 1)%Z - f k) <= D) ->
  Rabs (blend n f v - blend n f u) <= D * (v - u).
Proof using.
  intros Hn HD Hu Huv Hv Hf. unfold blend. destruct (n =? 1)%Z eqn:E.
  { rewrite Rminus_eq_0, Rabs_R0. apply Rmult_le_pos; lra. }
  assert (1 < n)%Z as Hn1 by lia.
  destruct (lower_cell_offset n u Hn1 ltac:(lra)) as (Hk & Ho & _).
  destruct (lower_cell_offset n v Hn1 ltac:(lra)) as (Hk' & Ho' & _).
  assert (Hle : (Zfloor (u - 1 / 2) <= Zfloor (v - 1 / 2))%Z) by (apply Zfloor_le; lra).
  assert (Hmono : (lower_cell n u <= lower_cell n v)%Z) by (unfold lower_cell; lia).
  assert (Hlo : (lower_cell n u < lower_cell n v)%Z -> u <= IZR (lower_cell n u) + 3 / 2 /\ IZR (lower_cell n v) + 1 / 2 <= v).
  { intros Hlt. unfold lower_cell in *.
    pose proof (Zfloor_ub (u - 1 / 2)) as H1. pose proof (Zfloor_lb (v - 1 / 2)) as H2.
    assert (H3 : (Zfloor (u - 1 / 2) <= Z.max 0 (Z.min (n - 2) (Zfloor (u - 1 / 2))))%Z) by lia.
    assert (H4 : (Z.max 0 (Z.min (n - 2) (Zfloor (v - 1 / 2))) <= Zfloor (v - 1 / 2))%Z) by lia.
    apply IZR_le in H3, H4. lra. }
  set (k := lower_cell n u) in *. set (k' := lower_cell n v) in *. clearbody k k'.
  destruct (Z.eq_dec k k') as [<- |Hne].
  - assert (H := Hf k ltac:(lia) ltac:(lia)).
    replace (lerp (v - IZR k - 1 / 2) (f k) (f (k + 1)%Z) - lerp (u - IZR k - 1 / 2) (f k) (f (k + 1)%Z))
      with ((f (k + 1)%Z - f k) * (v - u)) by (unfold lerp; ring).
    rewrite Rabs_mult, (Rabs_pos_eq (v - u)) by lra. apply Rmult_le_compat_r; lra.
  - destruct (Hlo ltac:(lia)) as (Hlo1 & Hlo2).
    assert (H1 := Hf k ltac:(lia) ltac:(lia)). assert (H2 := Hf k' ltac:(lia) ltac:(lia)).
    assert (H3 : Rabs (f k' - f (k + 1)%Z) <= D * (IZR k' - IZR k - 1)).
    { pose proof (telescope f D (Z.to_nat (k' - (k + 1))) (k + 1)) as H.
      replace (k + 1 + Z.of_nat (Z.to_nat (k' - (k + 1))))%Z with k' in H by lia.
      rewrite INR_IZR_INZ, Z2Nat.id in H by lia.
      replace (IZR k' - IZR k - 1) with (IZR (k' - (k + 1))) by (rewrite minus_IZR, plus_IZR; ring).
      apply H. intros j Hj. apply Hf; lia. }
    set (a := lerp (v - IZR k' - 1 / 2) (f k') (f (k' + 1)%Z)).
    set (b := lerp (u - IZR k - 1 / 2) (f k) (f (k + 1)%Z)).
    assert (H4 : Rabs (a - f k') <= D * (v - IZR k' - 1 / 2)).
    { unfold a. rewrite lerp_left, Rabs_mult, (Rabs_pos_eq (v - _ - _)) by lra. apply Rmult_le_compat_r; lra. }
    assert (H5 : Rabs (f (k + 1)%Z - b) <= D * (IZR k + 3 / 2 - u)).
    { unfold b. rewrite lerp_right, Rabs_mult, (Rabs_pos_eq (1 - _)) by lra.
      replace (1 - (u - IZR k - 1 / 2)) with (IZR k + 3 / 2 - u) by field. apply Rmult_le_compat_r; lra. }
    replace (a - b) with ((a - f k') + (f k' - f (k + 1)%Z) + (f (k + 1)%Z - b)) by ring.
    eapply Rle_trans; [apply Rabs_triang|]. pose proof (Rabs_triang (a - f k') (f k' - f (k + 1)%Z)).
    replace (D * (v - u)) with (D * (v - IZR k' - 1 / 2) + D * (IZR k' - IZR k - 1) + D * (IZR k + 3 / 2 - u)) by field.
    lra.
Qed.

Lemma blend_lipschitz n f D u v : (1 <= n)%Z -> 0 <= D -> 0 <= u < IZR n -> 0 <= v < IZR n ->
  (forall k, (0 <= k)%Z -> (k + 1 < n)%Z -> Rabs (f (k + 1)%Z - f k) <= D) ->
  Rabs (blend n f v - blend n f u) <= D * Rabs (v - u).
Proof using.
  intros Hn HD Hu Hv Hf. destruct (Rle_dec u v) as [H|H].
  - rewrite (Rabs_pos_eq (v - u)) by lra. apply blend_lipschitz_le; auto; lra.
  - rewrite Rabs_minus_sym, (Rabs_minus_sym v u), (Rabs_pos_eq (u - v)) by lra.
    apply blend_lipschitz_le; auto; lra.
Qed.

(** ** Estimation in three dimensions *)

Definition field_value (g : grid R) (r : R) (c : idx) : R :=
  match gget g c with Some d => shifted r d | None => 0 end.

Definition blend3 (g : grid R) (r : R) (u : R * R * R) : R :=
  blend (g_nx g) (fun a => blend (g_ny g) (fun b => blend (g_nz g) (fun c =>
    field_value g r (a, b, c)) (snd u)) (snd (fst u))) (fst (fst u)).

Definition voxels (r : R) (q : R * R * R) : R * R * R :=
  (fst (fst q) * / r, snd (fst q) * / r, snd q * / r).

Lemma voxels_inside r n q : 0 < r -> inside_axis r n q <-> 0 <= q * / r < IZR n.
Proof using.
  intros Hr. unfold inside_axis. assert (Hi := Rinv_0_lt_compat r Hr).
  assert (E : q = q * / r * r) by (field; lra). set (u := q * / r) in *. rewrite E.
  rewrite (Rmult_comm r). split; intros (H1 & H2); split.
  - apply Rmult_le_reg_r with r; lra.
  - now apply Rmult_lt_reg_r in H2.
  - apply Rmult_le_pos; lra.
  - now apply Rmult_lt_compat_r.
Qed.

Lemma floor_inside u n : (0 <= Zfloor u < n)%Z <-> 0 <= u < IZR n.
Proof using.
  pose proof (Zfloor_lb u). pose proof (Zfloor_ub u). split.
  - intros (H1 & H2). apply IZR_le in H1. assert (H3 : (Zfloor u + 1 <= n)%Z) by lia.
    apply IZR_le in H3. rewrite plus_IZR in H3. lra.
  - intros (H1 & H2). split; [now apply Zfloor_lub|]. apply lt_IZR. lra.
Qed.

Section Estimate.
Variables (g : grid R) (r : R).
Variable tg : qvec4 real_query -> qvec real_query.
Variables tw ro : qvec real_query -> qvec real_query.
Hypothesis Hr : 0 < r.
Hypothesis W : gwf g.
Notation fld := (real_field g r tg tw ro).

Lemma location_inside p : in_bounds g (location_index real_query fld p) = true <-> inside g r (tg p).
Proof using Hr.
  unfold location_index, inside. cbn -[Zfloor]. rewrite in_bounds_iff.
  rewrite !voxels_inside, <- !floor_inside by easy. unfold qx, qy, qz. tauto.
Qed.

Lemma read_values cells : (forall c, In c cells -> in_bounds g c = true) ->
  read_corrected real_query fld cells = Some (map (field_value g r) cells).
Proof using W.
  induction cells as [|c t IH]; intros H; [easy|]. cbn [read_corrected map].
  destruct (gget_some g c W (H c (or_introl eq_refl))) as (d & Ed).
  cbn [s_grid real_field]. change (qS real_query) with R. rewrite Ed, IH by (intros; apply H; now right).
  cbn. unfold field_value at 2. rewrite Ed. apply f_equal, f_equal2; [|easy].
  unfold corrected, shifted. cbn. unfold Rleb. destruct (Rle_dec 0 d); field.
Qed.

Lemma pair_cell n u : (1 <= n)%Z -> 0 <= u < IZR n ->
  forall P, P = (if (n =? 1)%Z then (0%Z, 0%Z) else (lower_cell n u, (lower_cell n u + 1)%Z)) ->
  (0 <= fst P < n)%Z /\ (0 <= snd P < n)%Z /\
  forall f : Z -> R, lerp (u - IZR (fst P) - 1 / 2) (f (fst P)) (f (snd P)) = blend n f u.
Proof using.
  intros Hn Hu P ->. unfold blend. destruct (n =? 1)%Z eqn:E; cbn [fst snd].
  - split; [lia|]. split; [lia|]. intros f. apply lerp_same.
  - destruct (lower_cell_offset n u ltac:(lia) Hu) as (H & _). split; [lia|]. split; [lia|easy].
Qed.

Lemma offset_sign q i : 0 <= q - r * (IZR i + 1 / 2) <-> 0 <= q * / r - (IZR i + 1 / 2).
Proof using Hr.
  assert (E : q - r * (IZR i + 1 / 2) = r * (q * / r - (IZR i + 1 / 2))) by (field; lra). rewrite E. split; intros H.
  - apply Rmult_le_reg_l with r; lra.
  - apply Rmult_le_pos; lra.
Qed.

Lemma weight q k : (q - r * (IZR k + 1 / 2)) / (r * (IZR k + 1 / 2) + r - r * (IZR k + 1 / 2)) = q * / r - IZR k - 1 / 2.
Proof using Hr. field. lra. Qed.

Lemma estimate_blend p : inside g r (tg p) -> estimate real_query fld p = Answer (blend3 g r (voxels r (tg p))).
Proof using Hr W.
  intros Hi. pose proof (proj2 (location_inside p) Hi) as Hb. destruct W as (Nx & Ny & Nz & _).
  unfold estimate. cbn [s_grid real_field]. change (qS real_query) with R. rewrite Hb.
  unfold interpolate. unfold location_index, qx, qy, qz in *. destruct (tg p) as [[x y] z] eqn:Et.
  cbn [s_grid s_inv s_to_grid real_field qx qy qz fst snd] in *. rewrite Et in *. cbn [fst snd] in *.
  cbn [q_floor q_mul real_query] in *. rewrite in_bounds_iff in Hb.
  destruct Hi as (Hx & Hy & Hz). cbn [fst snd] in Hx, Hy, Hz.
  rewrite voxels_inside in Hx, Hy, Hz by easy.
  unfold interpolation_pairs, voxels. cbn [s_grid s_res s_to_grid real_field]. rewrite Et. unfold qmap2, centre, qx, qy, qz.
  cbn [qx qy qz fst snd q_sub q_mul q_add q_ofZ q_half real_query s_res real_field ix iy iz].
  rewrite (axis_pair (g_nx g) (x * / r)) by (lia || apply offset_sign).
  rewrite (axis_pair (g_ny g) (y * / r)) by (lia || apply offset_sign).
  rewrite (axis_pair (g_nz g) (z * / r)) by (lia || apply offset_sign).
  destruct (pair_cell (g_nx g) (x * / r) ltac:(lia) Hx _ eq_refl) as (X1 & X2 & X3).
  destruct (pair_cell (g_ny g) (y * / r) ltac:(lia) Hy _ eq_refl) as (Y1 & Y2 & Y3).
  destruct (pair_cell (g_nz g) (z * / r) ltac:(lia) Hz _ eq_refl) as (Z1 & Z2 & Z3).
  set (px := if (g_nx g =? 1)%Z then _ else _) in *. set (py := if (g_ny g =? 1)%Z then _ else _) in *.
  set (pz := if (g_nz g =? 1)%Z then _ else _) in *. clearbody px py pz.
  rewrite read_values.
  2: { intros c Hc. apply corner_in in Hc. destruct c as [[cx cy] cz]. apply in_bounds_iff. cbn in Hc. lia. }
  cbn [stored corner_cells map]. apply f_equal. cbn [q_trilinear real_query].
  unfold real_trilinear, qmap, qx, qy, qz. cbn [qx qy qz fst snd q_add q_mul q_half q_ofZ real_query s_res real_field centre ix iy iz].
  rewrite !weight. unfold blend3. cbn [fst snd].
  rewrite <- X3. rewrite <- !Y3. rewrite <- !Z3. reflexivity.
Qed.

Lemma near_voxels t k q : near_axis r (t * r) k q <-> Rabs (IZR k + 1 / 2 - q * / r) <= t.
Proof using Hr.
  unfold near_axis. assert (E : r * (IZR k + 1 / 2) - q = r * (IZR k + 1 / 2 - q * / r)) by (field; lra).
  rewrite E, Rabs_mult, (Rabs_pos_eq r), (Rmult_comm t) by lra. split; intros H.
  - apply Rmult_le_reg_l with r; lra.
  - apply Rmult_le_compat_l; lra.
Qed.

Lemma centres_voxels n q : within_centres r n q -> n = 1%Z \/ 1 / 2 <= q * / r <= IZR n - 1 / 2.
Proof using Hr.
  intros [H|H]; [now left|right]. assert (E : q = r * (q * / r)) by (field; lra). rewrite E in H.
  split; apply Rmult_le_reg_l with r; lra.
Qed.

Definition in_reach (t : R) (q : R * R * R) (P : R -> Prop) : Prop :=
  forall c d, gget g c = Some d -> near_cell r (t * r) c q -> P (shifted r d).

Lemma in_reach_value t q P a b c : in_reach t q P -> (0 <= a < g_nx g)%Z -> (0 <= b < g_ny g)%Z -> (0 <= c < g_nz g)%Z ->
  near_cell r (t * r) (a, b, c) q -> P (field_value g r (a, b, c)).
Proof using W.
  intros H Ha Hb Hc Hq. destruct (gget_some g (a, b, c) W) as (d & Ed); [apply in_bounds_iff; lia|].
  unfold field_value. rewrite Ed. eapply H; eauto.
Qed.

Lemma estimate_between p m M e : estimate real_query fld p = Answer e -> inside g r (tg p) ->
  within_centres r (g_nx g) (fst (fst (tg p))) -> within_centres r (g_ny g) (snd (fst (tg p))) ->
  within_centres r (g_nz g) (snd (tg p)) ->
  in_reach 1 (tg p) (fun v => m <= v <= M) -> m <= e <= M.
Proof using Hr W.
  intros E Hi Cx Cy Cz H. rewrite (estimate_blend p Hi) in E. inversion E. clear E.
  apply centres_voxels in Cx, Cy, Cz. pose proof Hi as (Hx & Hy & Hz). rewrite voxels_inside in Hx, Hy, Hz by easy.
  destruct W as (Nx & Ny & Nz & _). unfold blend3, voxels. cbn [fst snd].
  apply blend_between; try assumption; [lia|]. intros a Ha Ka.
  apply blend_between; try assumption; [lia|]. intros b Hb Kb.
  apply blend_between; try assumption; [lia|]. intros c Hc Kc.
  apply (in_reach_value 1 (tg p) (fun v => m <= v <= M)); auto. repeat split; apply near_voxels; assumption.
Qed.

Lemma estimate_range p m M e : estimate real_query fld p = Answer e -> inside g r (tg p) ->
  in_reach (3 / 2) (tg p) (fun v => m <= v <= M) -> m - 7 / 2 * (M - m) <= e <= M + 7 / 2 * (M - m).
Proof using Hr W.
  intros E Hi H. rewrite (estimate_blend p Hi) in E. inversion E. clear E.
  pose proof Hi as (Hx & Hy & Hz). rewrite voxels_inside in Hx, Hy, Hz by easy.
  destruct W as (Nx & Ny & Nz & _). unfold blend3, voxels. cbn [fst snd].
  set (mid := (m + M) / 2). set (B := (M - m) / 2).
  match goal with |- _ <= ?v <= _ => assert (K : Rabs (v - mid) <= 2 * (2 * (2 * B))) end.
  2: { apply Rabs_le_inv in K. unfold mid, B in K. lra. }
  rewrite <- (blend_const (g_nx g) mid (fst (fst (tg p)) * / r)) at 1. rewrite blend_minus.
  apply blend_abs; try assumption; [lia|]. intros a Ha Ka.
  rewrite <- (blend_const (g_ny g) mid (snd (fst (tg p)) * / r)) at 1. rewrite blend_minus.
  apply blend_abs; try assumption; [lia|]. intros b Hb Kb.
  rewrite <- (blend_const (g_nz g) mid (snd (tg p) * / r)) at 1. rewrite blend_minus.
  apply blend_abs; try assumption; [lia|]. intros c Hc Kc.
  assert (m <= field_value g r (a, b, c) <= M).
  { apply (in_reach_value (3 / 2) (tg p) (fun v => m <= v <= M)); auto. repeat split; apply near_voxels; assumption. }
  apply Rabs_le. unfold mid, B. lra.
Qed.

Lemma blend_centre n f k : (0 <= k < n)%Z -> blend n f (r * (IZR k + 1 / 2) * / r) = f k.
Proof using Hr.
  intros Hk. replace (r * (IZR k + 1 / 2) * / r) with (IZR k + 1 / 2) by (field; lra).
  unfold blend. destruct (n =? 1)%Z eqn:E; [now replace k with 0%Z by lia|].
  unfold lower_cell. replace (IZR k + 1 / 2 - 1 / 2) with (IZR k) by ring. rewrite Zfloor_IZR.
  destruct (Z_lt_le_dec k (n - 1)) as [H|H].
  - replace (Z.max 0 (Z.min (n - 2) k)) with k by lia. unfold lerp. ring_simplify. field.
  - replace (Z.max 0 (Z.min (n - 2) k)) with (k - 1)%Z by lia.
    replace (k - 1 + 1)%Z with k by lia. rewrite minus_IZR. unfold lerp. field.
Qed.

Lemma estimate_centre i d : gget g i = Some d ->
  tg (tw (r * (IZR (ix i) + 1 / 2), r * (IZR (iy i) + 1 / 2), r * (IZR (iz i) + 1 / 2)), 1) =
    (r * (IZR (ix i) + 1 / 2), r * (IZR (iy i) + 1 / 2), r * (IZR (iz i) + 1 / 2)) ->
  estimate_index real_query fld i = Answer (shifted r d).
Proof using Hr W.
  intros Ed Ht. destruct i as [[x y] z]. cbn [ix iy iz fst snd] in *.
  pose proof (gget_in_bounds _ _ _ Ed) as Hb. rewrite in_bounds_iff in Hb.
  assert (Hc : forall k n, (0 <= k < n)%Z -> inside_axis r n (r * (IZR k + 1 / 2))).
  { intros k n (H1 & H2). apply IZR_le in H1. assert (H3 : (k + 1 <= n)%Z) by lia. apply IZR_le in H3.
    rewrite plus_IZR in H3. apply voxels_inside; [easy|].
    replace (r * (IZR k + 1 / 2) * / r) with (IZR k + 1 / 2) by (field; lra). lra. }
  unfold estimate_index, centre. cbn [q_one q_mul q_add q_ofZ q_half real_query s_res real_field s_to_world ix iy iz fst snd].
  match goal with |- estimate _ _ ?p = _ => assert (Hp : tg p =
    (r * (IZR x + 1 / 2), r * (IZR y + 1 / 2), r * (IZR z + 1 / 2))) by exact Ht;
    set (pt := p) in *; clearbody pt end.
  rewrite estimate_blend; rewrite Hp.
  - unfold blend3, voxels. cbn [fst snd]. rewrite !blend_centre by lia. unfold field_value. now rewrite Ed.
  - split; [|split]; apply Hc; lia.
Qed.

Lemma blend3_lipschitz D u v : 0 <= D ->
  (forall i j a b, face_adjacent i j -> gget g i = Some a -> gget g j = Some b ->
     Rabs (shifted r b - shifted r a) <= D) ->
  0 <= fst (fst u) < IZR (g_nx g) -> 0 <= snd (fst u) < IZR (g_ny g) -> 0 <= snd u < IZR (g_nz g) ->
  0 <= fst (fst v) < IZR (g_nx g) -> 0 <= snd (fst v) < IZR (g_ny g) -> 0 <= snd v < IZR (g_nz g) ->
  Rabs (blend3 g r v - blend3 g r u) <= 4 * D * taxicab v u.
Proof using W.
  intros HD HA. destruct u as [[ux uy] uz], v as [[vx vy] vz]. cbn [fst snd]. intros Ux Uy Uz Vx Vy Vz.
  destruct W as (Nx & Ny & Nz & _).
  assert (HF : forall a b c a' b' c', face_adjacent (a, b, c) (a', b', c') ->
    (0 <= a < g_nx g)%Z -> (0 <= b < g_ny g)%Z -> (0 <= c < g_nz g)%Z ->
    (0 <= a' < g_nx g)%Z -> (0 <= b' < g_ny g)%Z -> (0 <= c' < g_nz g)%Z ->
    Rabs (field_value g r (a', b', c') - field_value g r (a, b, c)) <= D).
  { intros a b c a' b' c' Hf H1 H2 H3 H4 H5 H6.
    destruct (gget_some g (a, b, c) W) as (d & Ed); [apply in_bounds_iff; lia|].
    destruct (gget_some g (a', b', c') W) as (d' & Ed'); [apply in_bounds_iff; lia|].
    unfold field_value. rewrite Ed, Ed'. eapply HA; eauto. }
  set (Ez := fun a b z => blend (g_nz g) (fun c => field_value g r (a, b, c)) z).
  set (Ey := fun a y z => blend (g_ny g) (fun b => Ez a b z) y).
  set (Ex := fun x y z => blend (g_nx g) (fun a => Ey a y z) x).
  change (blend3 g r (vx, vy, vz)) with (Ex vx vy vz). change (blend3 g r (ux, uy, uz)) with (Ex ux uy uz).
  assert (K1 : Rabs (Ex vx vy vz - Ex ux vy vz) <= 2 * (2 * D) * Rabs (vx - ux)).
  { apply blend_lipschitz; try assumption; [lia|lra|]. intros a Ha Ha'. unfold Ey. rewrite blend_minus.
    apply blend_abs; try assumption; [lia|]. intros b Hb _. unfold Ez. rewrite blend_minus.
    apply blend_abs; try assumption; [lia|]. intros c Hc _. apply HF; try lia. left. cbn. lia. }
  assert (K2 : Rabs (Ex ux vy vz - Ex ux uy vz) <= 2 * ((2 * D) * Rabs (vy - uy))).
  { unfold Ex. rewrite blend_minus. apply blend_abs; try assumption; [lia|]. intros a Ha _.
    apply blend_lipschitz; try assumption; [lia|lra|]. intros b Hb Hb'. unfold Ez. rewrite blend_minus.
    apply blend_abs; try assumption; [lia|]. intros c Hc _. apply HF; try lia. right. left. cbn. lia. }
  assert (K3 : Rabs (Ex ux uy vz - Ex ux uy uz) <= 2 * (2 * (D * Rabs (vz - uz)))).
  { unfold Ex. rewrite blend_minus. apply blend_abs; try assumption; [lia|]. intros a Ha _.
    unfold Ey. rewrite blend_minus. apply blend_abs; try assumption; [lia|]. intros b Hb _.
    apply blend_lipschitz; try assumption; [lia|]. intros c Hc Hc'. apply HF; try lia. right. right. cbn. lia. }
  unfold taxicab. cbn [fst snd].
  replace (Ex vx vy vz - Ex ux uy uz) with
    (Ex vx vy vz - Ex ux vy vz + (Ex ux vy vz - Ex ux uy vz) + (Ex ux uy vz - Ex ux uy uz)) by ring.
  eapply Rle_trans; [apply Rabs_triang|].
  pose proof (Rabs_triang (Ex vx vy vz - Ex ux vy vz) (Ex ux vy vz - Ex ux uy vz)). lra.
Qed.

Lemma taxicab_voxels p q : taxicab (voxels r p) (voxels r q) = taxicab p q / r.
Proof using Hr.
  unfold taxicab, voxels. cbn [fst snd]. rewrite <- !Rmult_minus_distr_r, !Rabs_mult.
  rewrite (Rabs_pos_eq (/ r)) by (left; now apply Rinv_0_lt_compat). field. lra.
Qed.

Lemma estimate_lipschitz D p q e f : 0 <= D ->
  (forall i j a b, face_adjacent i j -> gget g i = Some a -> gget g j = Some b ->
     Rabs (shifted r b - shifted r a) <= D) ->
  estimate real_query fld p = Answer e -> estimate real_query fld q = Answer f ->
  Rabs (f - e) <= 4 * D / r * taxicab (tg q) (tg p).
Proof using Hr W.
  intros HD HA Ee Ef.
  assert (Ip : forall p e, estimate real_query fld p = Answer e -> inside g r (tg p)).
  { intros p0 e0 E0. unfold estimate in E0. cbn [s_grid real_field] in E0. change (qS real_query) with R in E0.
    destruct (in_bounds g (location_index real_query fld p0)) eqn:Eb; [|easy]. now apply location_inside. }
  pose proof (Ip _ _ Ee) as Hp. pose proof (Ip _ _ Ef) as Hq.
  rewrite (estimate_blend _ Hp) in Ee. rewrite (estimate_blend _ Hq) in Ef. inversion Ee. inversion Ef.
  destruct Hp as (P1 & P2 & P3), Hq as (Q1 & Q2 & Q3). rewrite voxels_inside in P1, P2, P3, Q1, Q2, Q3 by easy.
  replace (4 * D / r * taxicab (tg q) (tg p)) with (4 * D * (taxicab (tg q) (tg p) / r)) by (field; lra).
  rewrite <- taxicab_voxels. apply blend3_lipschitz; assumption.
Qed.

Lemma estimate_outside p : ~ inside g r (tg p) -> estimate real_query fld p = Empty.
Proof using Hr.
  intros H. unfold estimate. cbn [s_grid real_field]. change (qS real_query) with R.
  destruct (in_bounds g (location_index real_query fld p)) eqn:E; [|easy].
  exfalso. apply H. now apply location_inside.
Qed.

Lemma estimate_answers p e : estimate real_query fld p = Answer e -> inside g r (tg p).
Proof using Hr.
  intros E. unfold estimate in E. cbn [s_grid real_field] in E. change (qS real_query) with R in E.
  destruct (in_bounds g (location_index real_query fld p)) eqn:Eb; [|easy]. now apply location_inside.
Qed.

Lemma inside_dec q : inside g r q \/ ~ inside g r q.
Proof using.
  clear tg tw ro Hr W. unfold inside, inside_axis.
  destruct (Rle_dec 0 (fst (fst q))), (Rlt_dec (fst (fst q)) (r * IZR (g_nx g))),
    (Rle_dec 0 (snd (fst q))), (Rlt_dec (snd (fst q)) (r * IZR (g_ny g))),
    (Rle_dec 0 (snd q)), (Rlt_dec (snd q) (r * IZR (g_nz g))); tauto.
Qed.

Lemma fine_axis_slope (E : R -> answer R) x w h :
  0 < w -> E x = Answer h ->
  (E (x - w) = Empty \/ exists e, E (x - w) = Answer e) -> (E (x + w) = Empty \/ exists e, E (x + w) = Answer e) ->
  ((exists e, E (x - w) = Answer e) \/ exists e, E (x + w) = Answer e) ->
  exists c, fine_axis real_query (E x) (E (x - w)) (E (x + w)) x (x - w) (x + w) = Answer c /\ slope E x w c.
Proof using.
  intros Hw Hh Hm Hp Hone. rewrite Hh. unfold fine_axis. change (qT real_query) with R.
  destruct Hm as [Hm|(m & Hm)], Hp as [Hp|(q & Hp)]; rewrite Hm, Hp.
  - exfalso. destruct Hone as [(e & H)|(e & H)]; congruence.
  - eexists. split; [reflexivity|]. exists x, (x + w), h, q. split; [easy|]. split; [easy|].
    split; [lra|]. split; [right; split; [easy|congruence]|]. split; [now left|]. easy.
  - eexists. split; [reflexivity|]. exists (x - w), x, m, h. split; [easy|]. split; [easy|].
    split; [lra|]. split; [now left|]. split; [right; split; [easy|congruence]|]. easy.
  - eexists. split; [reflexivity|]. exists (x - w), (x + w), m, q. split; [easy|]. split; [easy|].
    split; [lra|]. split; [now left|]. split; [now left|]. easy.
Qed.

Lemma fine_gradient_slopes (o : R * R * R) x y z window :
  (forall a b c, tg (a, b, c, 1) = (a - fst (fst o), b - snd (fst o), c - snd o)) ->
  inside g r (tg (x, y, z, 1)) -> window <> 0 ->
  2 * Rabs window <= r * IZR (g_nx g) -> 2 * Rabs window <= r * IZR (g_ny g) -> 2 * Rabs window <= r * IZR (g_nz g) ->
  exists gx gy gz, fine_gradient real_query fld (x, y, z) window = Answer (gx, gy, gz) /\
    slope (fun t => estimate real_query fld (t, y, z, 1)) x (Rabs window) gx /\
    slope (fun t => estimate real_query fld (x, t, z, 1)) y (Rabs window) gy /\
    slope (fun t => estimate real_query fld (x, y, t, 1)) z (Rabs window) gz.
Proof using Hr W.
  intros Ht Hi Hw0 Bx By Bz. assert (Hw : 0 < Rabs window) by now apply Rabs_pos_lt.
  unfold fine_gradient. cbn [q_abs q_one q_add q_sub real_query s_grid real_field]. set (w := Rabs window) in *. clearbody w.
  match goal with |- context [if ?b then _ else _] =>
    replace b with true by (symmetry; exact (proj2 (location_inside (x, y, z, 1)) Hi)) end.
  assert (Hd : forall p, estimate real_query fld p = Empty \/ exists e, estimate real_query fld p = Answer e).
  { intros p. destruct (inside_dec (tg p)) as [H|H]; [right|left; now apply estimate_outside].
    eexists. now apply estimate_blend. }
  assert (Ha : forall p, inside g r (tg p) -> exists e, estimate real_query fld p = Answer e).
  { intros p H. eexists. now apply estimate_blend. }
  destruct (Ha _ Hi) as (h & Eh). rewrite Ht in Hi. destruct Hi as (Ix & Iy & Iz). cbn [fst snd] in Ix, Iy, Iz.
  unfold inside_axis in Ix, Iy, Iz.
  destruct (fine_axis_slope (fun t => estimate real_query fld (t, y, z, 1)) x w h Hw Eh (Hd _) (Hd _)) as (gx & Ex & Sx).
  { destruct (Rle_dec 0 (x - w - fst (fst o))); [left|right]; apply Ha; rewrite Ht; repeat split; cbn [fst snd]; lra. }
  destruct (fine_axis_slope (fun t => estimate real_query fld (x, t, z, 1)) y w h Hw Eh (Hd _) (Hd _)) as (gy & Ey & Sy).
  { destruct (Rle_dec 0 (y - w - snd (fst o))); [left|right]; apply Ha; rewrite Ht; repeat split; cbn [fst snd]; lra. }
  destruct (fine_axis_slope (fun t => estimate real_query fld (x, y, t, 1)) z w h Hw Eh (Hd _) (Hd _)) as (gz & Ez & Sz).
  { destruct (Rle_dec 0 (z - w - snd o)); [left|right]; apply Ha; rewrite Ht; repeat split; cbn [fst snd]; lra. }
  exists gx, gy, gz. split; [|split; [exact Sx|split; [exact Sy|exact Sz]]].
  cbn beta in Ex, Ey, Ez. unfold value_of.
  match goal with |- match ?e with _ => _ end = _ => replace e with (Answer gx : answer R) by (symmetry; exact Ex) end.
  match goal with |- match ?e with _ => _ end = _ => replace e with (Answer gy : answer R) by (symmetry; exact Ey) end.
  match goal with |- match ?e with _ => _ end = _ => replace e with (Answer gz : answer R) by (symmetry; exact Ez) end.
  reflexivity.
Qed.
End Estimate.
