(** Rays that enter the grid from outside, in exact arithmetic. *)
From Coq Require Import ZArith List Bool Lia Reals Lra.
From Flocq Require Import Core.
From Verif Require Import Util Grid RaycastModel RealRayModel RayGeoSpec RayGeoProofs.
Import ListNotations.
Local Open Scope R_scope.

(** ** One axis of the slab loop *)

(** [d * t] is between 0 and [d * t0]. *)
Lemma between_mul d t t0 : 0 <= t <= t0 ->
  (0 <= d * t <= d * t0) \/ (d * t0 <= d * t <= 0).
Proof.
  intros Ht. destruct (Rle_or_lt 0 d) as [H|H].
  - left. split; [now apply Rmult_le_pos|]. apply Rmult_le_compat_l; lra.
  - right. assert (0 <= - d) by lra.
    pose proof (Rmult_le_pos _ _ H0 (proj1 Ht)).
    pose proof (Rmult_le_compat_l _ _ _ H0 (proj2 Ht)). lra.
Qed.

(** If the ray is strictly between the planes at [t0], no later than the range, the
    axis does not reject it, and after the new lower bound it is between the planes. *)
Lemma slab_axis_enter a tm d p size t0 :
  0 <= a <= t0 -> is_time tm -> ele (Fin t0) tm -> 0 < p + d * t0 < size ->
  (0 <= p < size \/ / 10000000000 <= Rabs d) ->
  exists a' tm', slab_axis exact_ray (Fin a, tm) (Fin d, Fin p, Fin size) = Some (Fin a', tm') /\
    a <= a' <= t0 /\ is_time tm' /\ ele (Fin t0) tm' /\
    forall t, a' < t <= t0 -> 0 <= p + d * t < size.
Proof.
  intros Ha Htm Hle Hin Hflat. unfold slab_axis. cbn -[Rlt_dec Rle_dec er_ltb er_leb].
  destruct (er_ltb (Fin (Rabs d)) (Fin (/ 10000000000))) eqn:Eflat.
  { cbn in Eflat. destruct (Rlt_dec (Rabs d) (/ 10000000000)); [|easy].
    assert (Hp : 0 <= p < size) by (destruct Hflat; [easy|lra]).
    exists a, tm. unfold er_leb, er_ltb. destruct (Rle_dec 0 p); [|lra].
    destruct (Rlt_dec p size); [|lra]. split; [reflexivity|]. split; [lra|]. split; [easy|].
    split; [easy|]. intros t Ht. destruct (between_mul d t t0); lra. }
  assert (Hd : d <> 0).
  { intros ->. rewrite Rabs_R0 in Eflat. cbn in Eflat. destruct (Rlt_dec _ _); [easy|lra]. }
  destruct (Req_EM_T d 0); [easy|]. cbn -[Rlt_dec Rle_dec er_ltb er_leb].
  set (lo := (0 + - p) * (1 / d)). set (hi := (size + - p) * (1 / d)).
  assert (Elo : lo * d = - p) by (unfold lo; field; easy).
  assert (Ehi : hi * d = size - p) by (unfold hi; field; easy).
  set (t1 := if er_leb (Fin lo) (Fin hi) then Fin lo else Fin hi).
  set (t2 := if er_leb (Fin lo) (Fin hi) then Fin hi else Fin lo).
  assert (H1 : exists u1 u2, t1 = Fin u1 /\ t2 = Fin u2 /\ u1 <= t0 /\ t0 <= u2 /\
    forall t, u1 < t <= t0 -> 0 <= p + d * t < size).
  { assert (Hc : 0 < d /\ lo <= t0 <= hi \/ d < 0 /\ hi <= t0 <= lo).
    { destruct (Rtotal_order d 0) as [H|[H|H]]; [right| easy |left]; (split; [easy|]).
      - split; apply (Rmult_le_reg_r (- d)); lra.
      - split; apply (Rmult_le_reg_r d); lra. }
    assert (Hm : forall t, t <= t0 -> 0 < d -> d * t <= d * t0)
      by (intros; apply Rmult_le_compat_l; lra).
    unfold t1, t2, er_leb.
    destruct Hc as [(Hdp & Hr)|(Hdn & Hr)].
    - destruct (Rle_dec lo hi); [|lra]. exists lo, hi. split; [easy|]. split; [easy|].
      split; [lra|]. split; [lra|]. intros t Ht. specialize (Hm t (proj2 Ht) Hdp).
      assert (lo * d < t * d) by (apply Rmult_lt_compat_r; lra). lra.
    - assert (Hgen : (if Rle_dec lo hi then true else false) = true -> lo = hi /\ t0 = lo).
      { destruct (Rle_dec lo hi); [|easy]. intros _. lra. }
      assert (Hres : forall t, hi < t <= t0 -> 0 <= p + d * t < size).
      { intros t Ht. assert (t * - d <= t0 * - d) by (apply Rmult_le_compat_r; lra).
        assert (hi * - d < t * - d) by (apply Rmult_lt_compat_r; lra). lra. }
      destruct (Rle_dec lo hi).
      + destruct (Hgen eq_refl) as (E1 & E2). exists lo, hi. rewrite <- E1.
        split; [easy|]. split; [easy|]. split; [lra|]. split; [lra|]. intros t Ht.
        apply Hres. lra.
      + exists hi, lo. split; [easy|]. split; [easy|]. split; [lra|]. split; [lra|]. exact Hres. }
  destruct H1 as (u1 & u2 & Et1 & Et2 & Hu1 & Hu2 & Hbox). rewrite Et1, Et2.
  set (tm' := if er_ltb tm (Fin u2) then Fin u2 else tm).
  assert (Ht' : is_time tm' /\ ele (Fin t0) tm').
  { unfold tm'. destruct (er_ltb tm (Fin u2)); [|easy]. split; [right; eauto|]. cbn. lra. }
  destruct Ht' as (T1 & T2).
  assert (Hno : forall x, x <= t0 -> er_ltb tm' (Fin x) = false).
  { intros x Hx. destruct T1 as [->|[y ->]]; cbn; [easy|]. cbn in T2.
    destruct (Rlt_dec y x); [lra|easy]. }
  replace (er_ltb (Fin a) (Fin u1)) with (if Rlt_dec a u1 then true else false) by reflexivity.
  destruct (Rlt_dec a u1).
  - exists u1, tm'. rewrite (Hno u1 Hu1). split; [reflexivity|]. split; [lra|].
    split; [easy|]. split; [easy|]. exact Hbox.
  - exists a, tm'. rewrite (Hno a (proj2 Ha)). split; [reflexivity|]. split; [lra|].
    split; [easy|]. split; [easy|]. intros t Ht. apply Hbox. lra.
Qed.

(** ** The start of a ray that enters *)

Definition steep_or_in (n v o d : R) : Prop := 0 <= o < v * n \/ / 10000000000 <= Rabs d.

Lemma start_point_enters v nx ny nz m o oi r len t0 :
  range_ok m -> len <> 0 -> length_of exact_ray (vec_of r) = Fin len ->
  in_grid exact_ray (exact_grid v nx ny nz) oi = false -> 0 <= t0 -> within_range m t0 ->
  0 < px o + px r / len * t0 < v * IZR nx ->
  0 < py o + py r / len * t0 < v * IZR ny ->
  0 < pz o + pz r / len * t0 < v * IZR nz ->
  steep_or_in (IZR nx) v (px o) (px r / len) ->
  steep_or_in (IZR ny) v (py o) (py r / len) ->
  steep_or_in (IZR nz) v (pz o) (pz r / len) ->
  exists a, 0 <= a <= t0 /\
    start_point exact_ray (exact_grid v nx ny nz) m (vec_of o) oi (vec_of r) =
      Some (vec_of (px o + px r * ((a + / 10000000000) / len),
                    py o + py r * ((a + / 10000000000) / len),
                    pz o + pz r * ((a + / 10000000000) / len))) /\
    forall t, a < t <= t0 ->
      in_grid_box v nx ny nz
        (px o + px r / len * t, py o + py r / len * t, pz o + pz r / len * t).
Proof.
  intros Hm Hlen El Hg Ht0 Hw Bx By Bz Fx Fy Fz.
  unfold start_point. rewrite Hg, El.
  assert (Ed : vmap exact_ray (fun x => r_div exact_ray x (Fin len)) (vec_of r) =
               vec_of (px r / len, py r / len, pz r / len)).
  { unfold vmap, vec_of, vx, vy, vz. cbn. destruct (Req_EM_T len 0); [easy|]. reflexivity. }
  rewrite Ed.
  cbn [ofold vec_of vx vy vz px py pz fst snd exact_grid rg_sx rg_sy rg_sz].
  assert (Tm : is_time m) by (destruct m; unfold is_time; eauto; easy).
  assert (Lm : ele (Fin t0) m) by (destruct m; cbn in *; easy).
  change (r_zero exact_ray) with (Fin 0).
  destruct (slab_axis_enter 0 m _ _ _ t0 (conj (Rle_refl 0) Ht0) Tm Lm Bx Fx)
    as (a1 & m1 & E1 & Ha1 & Tm1 & Lm1 & H1).
  match goal with |- context [slab_axis ?A ?b ?c] =>
    replace (slab_axis A b c) with (Some (Fin a1, m1)) by (symmetry; exact E1) end.
  cbn [obind].
  destruct (slab_axis_enter a1 m1 _ _ _ t0 Ha1 Tm1 Lm1 By Fy)
    as (a2 & m2 & E2 & Ha2 & Tm2 & Lm2 & H2).
  match goal with |- context [slab_axis ?A ?b ?c] =>
    replace (slab_axis A b c) with (Some (Fin a2, m2)) by (symmetry; exact E2) end.
  cbn [obind].
  destruct (slab_axis_enter a2 m2 _ _ _ t0 (conj (Rle_trans _ _ _ (proj1 Ha1) (proj1 Ha2)) (proj2 Ha2))
    Tm2 Lm2 Bz Fz) as (a3 & m3 & E3 & Ha3 & Tm3 & Lm3 & H3).
  match goal with |- context [slab_axis ?A ?b ?c] =>
    replace (slab_axis A b c) with (Some (Fin a3, m3)) by (symmetry; exact E3) end.
  cbn [obind fst].
  exists a3. split; [lra|]. split.
  - f_equal. unfold vmap2, vmap, vec_of, vx, vy, vz. cbn. f_equal; [f_equal|]; f_equal; field; easy.
  - intros t Ht. split; [|split]; cbn [px py pz fst snd]; [apply H1|apply H2|apply H3]; lra.
Qed.

Section Enter.
Variables (v : R) (nx ny nz : Z) (o p e : pt) (m : er).
Hypothesis Hv : 0 < v.
Hypothesis Hm : range_ok m.
Hypothesis Hcut : cut_at m o p e.
Let g := exact_grid v nx ny nz.

Lemma open_box i q : in_bounds3 nx ny nz i = true -> inside_voxel v i q ->
  0 < px q < v * IZR nx /\ 0 < py q < v * IZR ny /\ 0 < pz q < v * IZR nz.
Proof using Hv.
  intros Hi (H1 & H2 & H3). apply in_bounds3_iff in Hi. destruct Hi as (I1 & I2 & I3).
  assert (Hax : forall k n x, (0 <= k < n)%Z -> IZR k * v < x < (IZR k + 1) * v -> 0 < x < v * IZR n).
  { intros k n x [K1 K2] Hx. apply IZR_le in K1.
    assert (K3 : IZR k + 1 <= IZR n) by (rewrite <- plus_IZR; apply IZR_le; lia).
    pose proof (Rmult_le_pos _ _ K1 (Rlt_le _ _ Hv)).
    pose proof (Rmult_le_compat_r v _ _ (Rlt_le _ _ Hv) K3). lra. }
  split; [|split]; eapply Hax; eauto.
Qed.

Lemma dist_between t1 t2 : t1 <= t2 -> dist (along o e t1) (along o e t2) = (t2 - t1) * dist o e.
Proof using.
  intros Ht. unfold dist, along. cbn [px py pz fst snd]. rewrite <- norm_scale by lra.
  f_equal. ring.
Qed.

(** Voxels crossed after the entry are marked. *)
Lemma cast_complete_outside bs t t1 i :
  ~ in_grid_box v nx ny nz o ->
  steep_or_in (IZR nx) v (px o) ((px p - px o) / dist o p) ->
  steep_or_in (IZR ny) v (py o) ((py p - py o) / dist o p) ->
  steep_or_in (IZR nz) v (pz o) ((pz p - pz o) / dist o p) ->
  cast_point exact_ray g m (vec_of o) (voxel_of exact_ray g (vec_of o)) (vec_of p) = Some bs ->
  0 <= t1 <= t -> t <= 1 -> in_bounds3 nx ny nz i = true ->
  inside_voxel v i (along o e t) ->
  in_closed_grid_box v nx ny nz (along o e t1) ->
  / 10000000000 <= dist (along o e t1) (along o e t) ->
  ~ belongs_to_voxel v i e -> In (i, false) bs.
Proof using Hv Hm Hcut.
  intros Hout Fx Fy Fz Hc Ht1 Ht Hi Hin Hbox Hgap Hne.
  destruct (cut_ratio m o p e Hm Hcut) as (s0 & Hs0 & He0 & _ & Hd0).
  rewrite dist_between in Hgap by lra.
  pose proof (dist_nonneg o e) as De. pose proof (dist_nonneg o p) as Dp.
  assert (Le : 0 < dist o e).
  { destruct De as [H|H]; [easy|]. rewrite <- H in Hgap. lra. }
  assert (Lp : 0 < dist o p).
  { destruct Dp as [H|H]; [easy|]. rewrite <- H in Hd0. lra. }
  assert (S0 : 0 < s0).
  { destruct (proj1 Hs0) as [H|H]; [easy|]. rewrite <- H in Hd0. lra. }
  assert (Hst : starts_on_segment v nx ny nz o e).
  { right. exists t1. split; [lra|]. split; [easy|]. rewrite dist_along_end by lra.
    apply Rle_trans with (1 := Hgap). apply Rmult_le_compat_r; lra. }
  assert (Hog : in_grid exact_ray g (voxel_of exact_ray g (vec_of o)) = false).
  { destruct (in_grid exact_ray g _) eqn:E; [|easy]. exfalso. apply Hout.
    now apply (in_grid_box_iff v nx ny nz o Hv). }
  assert (Epos : forall u, along o e u =
    (px o + px (psub p o) / dist o p * (u * dist o e),
     py o + py (psub p o) / dist o p * (u * dist o e),
     pz o + pz (psub p o) / dist o p * (u * dist o e))).
  { intros u. rewrite Hd0, He0. unfold along, psub. cbn [px py pz fst snd].
    f_equal; [f_equal|]; field; lra. }
  destruct (open_box i _ Hi Hin) as (Ox & Oy & Oz). rewrite Epos in Ox, Oy, Oz.
  cbn [px py pz fst snd] in Ox, Oy, Oz.
  destruct (start_point_enters v nx ny nz m o (voxel_of exact_ray g (vec_of o)) (psub p o)
    (dist o p) (t * dist o e)) as (a & Ha & Estart & Hab); try easy; try lra.
  { apply Rmult_le_pos; lra. }
  { destruct Hcut as (l & Hl & _ & Hdl). destruct m as [r| | |]; cbn in *; try easy.
    pose proof (Rmin_r (dist o p) r).
    assert (t * dist o e <= 1 * dist o e) by (apply Rmult_le_compat_r; lra). lra. }
  destruct (start_point_outside v nx ny nz m o (voxel_of exact_ray g (vec_of o)) (psub p o)
    (dist o p) (t1 * dist o e) _ Hm ltac:(lra) eq_refl Hog ltac:(apply Rmult_le_pos; lra)
    ltac:(rewrite <- Epos; exact Hbox) Estart) as (a' & Ha' & Ea').
  fold g in Estart.
  destruct (cast_path_exact v nx ny nz o p e m Hv Hm Hcut bs Hst Hc) as [(_ & _ & H)|H].
  { fold g in H. rewrite H in Estart. discriminate. }
  destruct H as (s & tau & path & Htau & He & Hs1 & _ & Est & Hbs & _ & Hgood). fold g in Est.
  assert (Es : s = s0).
  { rewrite He in Hd0. rewrite dist_along in Hd0 by lra. apply (Rmult_eq_reg_r (dist o p)); lra. }
  subst s0.
  rewrite Estart in Est. injection Est as Ex Ey Ez.
  assert (Etau : tau * dist o p = a + / 10000000000 /\ a <= t1 * dist o e).
  { assert (Hrec : forall x, px (psub p o) * x = 0 -> py (psub p o) * x = 0 ->
      pz (psub p o) * x = 0 -> x = 0).
    { intros x X1 X2 X3. destruct (Req_dec x 0) as [H|H]; [easy|]. exfalso.
      assert (Hp : forall u, u * x = 0 -> u = 0).
      { intros u Hu. apply Rmult_integral in Hu. tauto. }
      apply Hp in X1, X2, X3. unfold psub in X1, X2, X3. cbn [px py pz fst snd] in X1, X2, X3.
      assert (dist o p = 0); [|lra].
      unfold dist. rewrite X1, X2, X3. rewrite !Rmult_0_l, !Rplus_0_l. apply sqrt_0. }
    unfold along in Ex, Ey, Ez. cbn [px py pz fst snd] in Ex, Ey, Ez.
    assert (E1 : (a + / 10000000000) / dist o p - tau = 0).
    { apply Hrec; unfold psub; cbn [px py pz fst snd];
        [unfold psub in Ex; cbn [px py pz fst snd] in Ex|
         unfold psub in Ey; cbn [px py pz fst snd] in Ey|
         unfold psub in Ez; cbn [px py pz fst snd] in Ez]; lra. }
    injection Ea' as Ax Ay Az.
    assert (E2 : (a + / 10000000000) / dist o p - (a' + / 10000000000) / dist o p = 0).
    { apply Hrec; unfold psub; cbn [px py pz fst snd];
        [unfold psub in Ax; cbn [px py pz fst snd] in Ax|
         unfold psub in Ay; cbn [px py pz fst snd] in Ay|
         unfold psub in Az; cbn [px py pz fst snd] in Az]; lra. }
    assert (F1 : (a + / 10000000000) / dist o p * dist o p = a + / 10000000000) by (field; lra).
    assert (F2 : (a' + / 10000000000) / dist o p * dist o p = a' + / 10000000000) by (field; lra).
    assert (E3 : a = a').
    { assert ((a + / 10000000000) / dist o p = (a' + / 10000000000) / dist o p) as X by lra.
      rewrite X in F1. lra. }
    split; [|lra]. rewrite <- F1. f_equal. lra. }
  destruct Etau as (Etau & Ha1).
  assert (Htt : tau <= s * t).
  { apply (Rmult_le_reg_r (dist o p)); [easy|]. rewrite Etau, Rmult_assoc, (Rmult_comm t), <- Rmult_assoc, <- Hd0.
    lra. }
  rewrite Hbs. apply in_or_app. right. apply (in_map (fun i => (i, false)) path i).
  destruct (Hgood) with (t := s * t - tau) (u := i) as [H|H]; try easy.
  - apply (in_grid_box_iff v nx ny nz (along o p tau) Hv).
    assert (E : along o p tau =
      (px o + px (psub p o) / dist o p * (a + / 10000000000),
       py o + py (psub p o) / dist o p * (a + / 10000000000),
       pz o + pz (psub p o) / dist o p * (a + / 10000000000))).
    { rewrite <- Etau. unfold along, psub. cbn [px py pz fst snd]. f_equal; [f_equal|]; field; lra. }
    rewrite E. apply Hab. lra.
  - split; [lra|]. assert (s * t <= s * 1) by (apply Rmult_le_compat_l; lra). lra.
  - assert (E : pos (along o p tau) (psub p o) (s * t - tau) = along o e t).
    { rewrite He. unfold pos, along, psub. cbn [px py pz fst snd]. f_equal; [f_equal|]; ring. }
    rewrite E. exact Hin.
  - exfalso. apply Hne. rewrite H. destruct (voxel_of_exact v nx ny nz e); [easy|lra].
Qed.

End Enter.
