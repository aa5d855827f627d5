(** Casting rays in exact arithmetic: which voxels are marked. *)
From Coq Require Import ZArith Reals List Bool Lia Lra ZifyBool Psatz.
From Flocq Require Import Core.
From Verif Require Import Util Grid ComponentSpec RaycastModel RaycastSpec RaycastProofs
  RealRayModel RayGeoSpec.
Import ListNotations.
Local Open Scope R_scope.

(** ** Times are finite or +inf *)

Definition ele (a b : er) : Prop :=
  match a, b with Fin x, Fin y => x <= y | _, PInf => True | _, _ => False end.
Definition is_time (a : er) : Prop := a = PInf \/ exists x, a = Fin x.

Lemma leb_ele a b : is_time a -> is_time b -> er_leb a b = true <-> ele a b.
Proof.
  intros [->|[x ->]] [->|[y ->]]; cbn; try easy. destruct (Rle_dec x y); easy.
Qed.

Lemma ele_total a b : is_time a -> is_time b -> ~ ele a b -> ele b a.
Proof. intros [->|[x ->]] [->|[y ->]]; cbn; try easy. lra. Qed.

Lemma ele_refl a : is_time a -> ele a a.
Proof. intros [->|[x ->]]; cbn; lra. Qed.

Lemma ele_trans a b c : is_time a -> is_time b -> is_time c -> ele a b -> ele b c -> ele a c.
Proof. intros [->|[x ->]] [->|[y ->]] [->|[z ->]]; cbn; try easy. lra. Qed.

(** ** One axis *)

(** The position at time [e] is in slab [cur], which is left at time [t]. *)
Definition axis_ok (v p r : R) (start fin cur : Z) (e : R) (t : er) : Prop :=
  IZR cur * v <= p + r * e <= (IZR cur + 1) * v /\
  (Z.min start fin <= cur <= Z.max start fin)%Z /\
  ((0 < r /\ exists u, t = Fin u /\ p + r * u = (IZR cur + 1) * v) \/
   (r < 0 /\ exists u, t = Fin u /\ p + r * u = IZR cur * v) \/
   (r = 0 /\ t = PInf)).

Definition slab_of (v x : R) (i : Z) : Prop := IZR i * v <= x < (IZR i + 1) * v.

Lemma axis_time v p r st fin cur e t : axis_ok v p r st fin cur e t -> is_time t.
Proof.
  intros (_ & _ & [(_ & u & -> & _)|[(_ & u & -> & _)|(_ & ->)]]); unfold is_time; eauto.
Qed.

Lemma slab_le v x y i j : 0 < v -> slab_of v x i -> slab_of v y j -> x <= y -> (i <= j)%Z.
Proof.
  intros Hv [H1 _] [_ H2] Hxy. apply Z.lt_succ_r, lt_IZR. rewrite succ_IZR.
  apply (Rmult_lt_reg_r v); lra.
Qed.

(** Direction of the ray against the order of the slabs. *)
Lemma axis_dir v p r s st fin : 0 < v -> 0 <= s -> slab_of v p st -> slab_of v (p + r * s) fin ->
  (0 <= r -> (st <= fin)%Z) /\ (r <= 0 -> (fin <= st)%Z).
Proof.
  intros Hv Hs H1 H2. split; intros Hr.
  - apply (slab_le v p (p + r * s)); try easy.
    pose proof (Rmult_le_pos _ _ Hr Hs). lra.
  - apply (slab_le v (p + r * s) p); try easy.
    assert (0 <= - r) by lra. pose proof (Rmult_le_pos _ _ H Hs). lra.
Qed.

Lemma axis_stay v p r st fin cur e t t' :
  axis_ok v p r st fin cur e t -> e <= t' -> ele (Fin t') t -> axis_ok v p r st fin cur t' t.
Proof.
  intros (Hpos & Hb & Ht) He Hle. split; [|split; easy].
  destruct Ht as [(Hr & u & -> & Hu)|[(Hr & u & -> & Hu)|(Hr & ->)]]; cbn in Hle.
  - pose proof (Rmult_le_compat_l r _ _ (Rlt_le _ _ Hr) He).
    pose proof (Rmult_le_compat_l r _ _ (Rlt_le _ _ Hr) Hle). lra.
  - assert (Hr' : 0 <= - r) by lra.
    pose proof (Rmult_le_compat_l (- r) _ _ Hr' He).
    pose proof (Rmult_le_compat_l (- r) _ _ Hr' Hle). lra.
  - subst r. lra.
Qed.

(** Leaving the slab before the last one. *)
Lemma axis_cross v p r s st fin cur e t :
  0 < v -> 0 <= s -> slab_of v p st -> slab_of v (p + r * s) fin ->
  axis_ok v p r st fin cur e t -> cur <> fin ->
  exists u, t = Fin u /\ e <= u <= s /\
    axis_ok v p r st fin (cur + step_of (fin - st)) u (er_add t (er_abs (er_div (Fin v) (Fin r)))).
Proof.
  intros Hv Hs Hst Hfin (Hpos & Hb & Ht) Hne.
  destruct (axis_dir v p r s st fin Hv Hs Hst Hfin) as (Hd1 & Hd2).
  destruct Ht as [(Hr & u & -> & Hu)|[(Hr & u & -> & Hu)|(Hr & ->)]].
  - specialize (Hd1 (Rlt_le _ _ Hr)). assert (Hc : (cur + 1 <= fin)%Z) by lia.
    assert (step_of (fin - st) = 1%Z) as -> by (unfold step_of; destruct (0 <? fin - st)%Z eqn:E; lia).
    exists u. split; [easy|].
    assert (Hc' : IZR cur + 1 <= IZR fin) by (rewrite <- plus_IZR; now apply IZR_le).
    assert (e <= u) by (apply (Rmult_le_reg_l r); lra).
    assert (u <= s).
    { apply (Rmult_le_reg_l r); [easy|]. destruct Hfin as [Hf _].
      pose proof (Rmult_le_compat_r v _ _ (Rlt_le _ _ Hv) Hc'). lra. }
    split; [easy|]. split; [|split; [lia|]].
    + rewrite Hu, plus_IZR. cbn. lra.
    + left. split; [easy|]. cbn. destruct (Req_EM_T r 0); [lra|]. cbn.
      eexists. split; [reflexivity|]. rewrite Rabs_pos_eq.
      * rewrite plus_IZR. field_simplify; [|lra]. replace (p + r * u + v) with ((IZR cur + 1) * v + v) by lra.
        lra.
      * apply Rlt_le, Rdiv_lt_0_compat; easy.
  - specialize (Hd2 (Rlt_le _ _ Hr)). assert (Hc : (fin + 1 <= cur)%Z) by lia.
    assert (step_of (fin - st) = (-1)%Z) as ->
      by (unfold step_of; destruct (0 <? fin - st)%Z eqn:E; [lia|]; destruct (fin - st <? 0)%Z eqn:E2; lia).
    exists u. split; [easy|].
    assert (Hc' : IZR fin + 1 <= IZR cur) by (rewrite <- plus_IZR; now apply IZR_le).
    assert (e <= u) by (apply (Rmult_le_reg_l (- r)); lra).
    assert (u <= s).
    { apply (Rmult_le_reg_l (- r)); [lra|]. destruct Hfin as [_ Hf].
      pose proof (Rmult_le_compat_r v _ _ (Rlt_le _ _ Hv) Hc'). lra. }
    split; [easy|]. split; [|split; [lia|]].
    + rewrite Hu, plus_IZR. lra.
    + right. left. split; [easy|]. cbn. destruct (Req_EM_T r 0); [lra|]. cbn.
      eexists. split; [reflexivity|].
      assert (v / r < 0).
      { unfold Rdiv. pose proof (Rmult_lt_compat_l v _ _ Hv (Rinv_lt_0_compat r Hr)). lra. }
      rewrite Rabs_left by easy. rewrite plus_IZR.
      replace (p + r * (u + - (v / r))) with (p + r * u - v) by (field; lra). rewrite Hu. lra.
  - exfalso. specialize (Hd1 (Req_le_sym _ _ Hr)). specialize (Hd2 (Req_le _ _ Hr)). lia.
Qed.

(** The last slab is not left before the end. *)
Lemma axis_stop v p r s st fin cur e t :
  0 < v -> slab_of v (p + r * s) fin -> axis_ok v p r st fin cur e t -> cur = fin -> ele (Fin s) t.
Proof.
  intros Hv Hfin (Hpos & Hb & Ht) ->. destruct Hfin as [Hf1 Hf2].
  destruct Ht as [(Hr & u & -> & Hu)|[(Hr & u & -> & Hu)|(Hr & ->)]]; cbn; [| |easy].
  - apply (Rmult_le_reg_l r); lra.
  - apply (Rmult_le_reg_l (- r)); lra.
Qed.

Lemma axis_between v p r s e t fin st cur x :
  axis_ok v p r st fin cur e t -> slab_of v (p + r * s) fin -> cur = fin -> e <= x <= s ->
  IZR cur * v <= p + r * x <= (IZR cur + 1) * v.
Proof.
  intros (Hpos & _ & _) [H1 H2] -> Hx.
  assert (Hmono : (p + r * e <= p + r * x <= p + r * s) \/ (p + r * s <= p + r * x <= p + r * e)).
  { destruct (Rle_or_lt 0 r) as [Hr|Hr].
    - left. pose proof (Rmult_le_compat_l r _ _ Hr (proj1 Hx)).
      pose proof (Rmult_le_compat_l r _ _ Hr (proj2 Hx)). lra.
    - right. assert (Hr' : 0 <= - r) by lra.
      pose proof (Rmult_le_compat_l _ _ _ Hr' (proj1 Hx)).
      pose proof (Rmult_le_compat_l _ _ _ Hr' (proj2 Hx)). lra. }
  lra.
Qed.

(** Once outside the grid the ray does not come back. *)
Lemma axis_left v p r s st fin cur e t n x u :
  0 < v -> 0 <= s -> slab_of v p st -> slab_of v (p + r * s) fin ->
  axis_ok v p r st fin cur e t -> (0 <= st < n)%Z -> ~ (0 <= cur < n)%Z -> e <= x ->
  (0 <= u < n)%Z -> IZR u * v < p + r * x < (IZR u + 1) * v -> False.
Proof.
  intros Hv Hs Hst Hfin (Hpos & Hb & _) Hsn Hout Hx Hu Hin.
  destruct (axis_dir v p r s st fin Hv Hs Hst Hfin) as (Hd1 & Hd2).
  destruct (Z_lt_ge_dec cur 0) as [Hneg|Hpos'].
  - assert (Hr : r < 0).
    { destruct (Rle_or_lt 0 r) as [H|H]; [|easy]. specialize (Hd1 H). lia. }
    assert (Hr' : 0 <= - r) by lra. pose proof (Rmult_le_compat_l _ _ _ Hr' Hx).
    assert (Hc : IZR cur + 1 <= 0) by (rewrite <- plus_IZR; apply IZR_le; lia).
    assert (Hu' : 0 <= IZR u) by (apply IZR_le; lia).
    pose proof (Rmult_le_compat_r v _ _ (Rlt_le _ _ Hv) Hc).
    pose proof (Rmult_le_compat_r v _ _ (Rlt_le _ _ Hv) Hu'). lra.
  - assert (Hr : 0 < r).
    { destruct (Rle_or_lt r 0) as [H|H]; [|easy]. specialize (Hd2 H). lia. }
    pose proof (Rmult_le_compat_l _ _ _ (Rlt_le _ _ Hr) Hx).
    assert (Hc : IZR u + 1 <= IZR cur) by (rewrite <- plus_IZR; apply IZR_le; lia).
    pose proof (Rmult_le_compat_r v _ _ (Rlt_le _ _ Hv) Hc). lra.
Qed.

Lemma axis_same v q cur u :
  0 < v -> IZR cur * v <= q <= (IZR cur + 1) * v -> IZR u * v < q < (IZR u + 1) * v -> u = cur.
Proof.
  intros Hv H1 H2. apply Z.le_antisymm; apply Z.lt_succ_r, lt_IZR; rewrite succ_IZR;
    apply (Rmult_lt_reg_r v); lra.
Qed.

Lemma slab_of_floor v x : 0 < v -> slab_of v x (Zfloor (x * / v)).
Proof.
  intros Hv. pose proof (Zfloor_lb (x * / v)) as H1. pose proof (Zfloor_ub (x * / v)) as H2.
  assert (E : x * / v * v = x) by (field; lra). split.
  - apply (Rmult_le_compat_r v) in H1; lra.
  - apply (Rmult_lt_compat_r v) in H2; lra.
Qed.

Lemma slab_of_unique v x i j : 0 < v -> slab_of v x i -> slab_of v x j -> i = j.
Proof. intros Hv H1 H2. apply Z.le_antisymm; apply (slab_le v x x); try easy; lra. Qed.

Lemma axis_init v p r s st fin : 0 < v -> 0 <= s -> slab_of v p st -> slab_of v (p + r * s) fin ->
  axis_ok v p r st fin st 0 (first_t exact_ray (exact_grid v 1 1 1) (Fin p) (Fin r) st).
Proof.
  intros Hv Hs [H1 H2] Hfin. split; [lra|]. split; [lia|].
  unfold first_t, axis_t. cbn.
  destruct (Rlt_dec 0 r) as [Hr|Hr].
  - left. split; [easy|]. cbn. destruct (Req_EM_T r 0); [lra|]. cbn.
    eexists. split; [reflexivity|]. rewrite Rabs_pos_eq; [field; lra|].
    apply Rmult_le_pos; [lra|]. apply Rlt_le, Rinv_0_lt_compat, Hr.
  - destruct (Rlt_dec r 0) as [Hr'|Hr'].
    + right. left. split; [easy|]. cbn. destruct (Req_EM_T r 0); [lra|]. cbn.
      eexists. split; [reflexivity|].
      assert (Hi : / r < 0) by now apply Rinv_lt_0_compat.
      set (a := p + - (v * (IZR st + / 2) + - (v * / 2))).
      assert (Ha : 0 <= a) by (unfold a; lra).
      assert (E : Rabs (a / r) = - (a / r)).
      { apply Rabs_left1. unfold Rdiv. pose proof (Rmult_le_compat_neg_l (/ r) 0 a (Rlt_le _ _ Hi) Ha). lra. }
      rewrite E. unfold a. field. easy.
    + right. right. split; [lra|easy].
Qed.

(** ** The walk *)

Section Walk.
Variables (v : R) (nx ny nz : Z) (p r : pt) (s : R) (si fi : idx).
Hypothesis Hv : 0 < v.
Hypothesis Hs : 0 <= s.
Hypothesis Hsx : slab_of v (px p) (ix si).
Hypothesis Hsy : slab_of v (py p) (iy si).
Hypothesis Hsz : slab_of v (pz p) (iz si).
Hypothesis Hfx : slab_of v (px p + px r * s) (ix fi).
Hypothesis Hfy : slab_of v (py p + py r * s) (iy fi).
Hypothesis Hfz : slab_of v (pz p + pz r * s) (iz fi).

Let g := exact_grid v nx ny nz.
Let step : idx := (step_of (ix fi - ix si), step_of (iy fi - iy si), step_of (iz fi - iz si)).

Definition pos (t : R) : pt := (px p + px r * t, py p + py r * t, pz p + pz r * t).

Definition wok (cur : idx) (e : R) (tx ty tz : er) : Prop :=
  axis_ok v (px p) (px r) (ix si) (ix fi) (ix cur) e tx /\
  axis_ok v (py p) (py r) (iy si) (iy fi) (iy cur) e ty /\
  axis_ok v (pz p) (pz r) (iz si) (iz fi) (iz cur) e tz.

Lemma wok_touches cur e tx ty tz : wok cur e tx ty tz -> touches_voxel v cur (pos e).
Proof using. intros ((H1 & _) & (H2 & _) & (H3 & _)). split; [easy|]. split; easy. Qed.

Lemma wok_stay cur e tx ty tz t :
  wok cur e tx ty tz -> e <= t -> ele (Fin t) tx -> ele (Fin t) ty -> ele (Fin t) tz ->
  wok cur t tx ty tz.
Proof using.
  intros (H1 & H2 & H3) He Hx Hy Hz. split; [|split]; eapply axis_stay; eauto.
Qed.

Lemma touches_inside cur u q : touches_voxel v cur q -> inside_voxel v u q -> u = cur.
Proof using Hv.
  intros (H1 & H2 & H3) (I1 & I2 & I3). destruct cur as [[a b] c], u as [[a' b'] c'].
  unfold ix, iy, iz in *. cbn [fst snd] in *.
  f_equal; [f_equal|]; eapply axis_same; eauto.
Qed.

(** What holds of the voxels listed by the loop from a state that satisfies [wok]. *)
Definition walk_good (e : R) (path : list idx) : Prop :=
  (forall i, In i path -> exists t, e <= t <= s /\ touches_voxel v i (pos t)) /\
  (in_grid exact_ray g si = true ->
   forall t u, e <= t <= s -> in_grid exact_ray g u = true -> inside_voxel v u (pos t) ->
   In u path \/ u = fi).

Lemma walk_good_stop cur e tx ty tz :
  wok cur e tx ty tz -> e <= s -> ele (Fin s) tx -> ele (Fin s) ty -> ele (Fin s) tz ->
  walk_good e [cur].
Proof using Hv.
  intros Hok He Hx Hy Hz. split.
  - intros i [<-|[]]. exists e. split; [lra|]. eapply wok_touches; eauto.
  - intros _ t u Ht _ Hin. left. left. symmetry. eapply touches_inside; [|exact Hin].
    apply (wok_touches cur t tx ty tz). apply (wok_stay cur e); try easy.
    + apply (ele_trans _ (Fin s)); unfold is_time; eauto; [|cbn; lra].
      destruct Hok as (H & _). eapply axis_time; eauto.
    + apply (ele_trans _ (Fin s)); unfold is_time; eauto; [|cbn; lra].
      destruct Hok as (_ & H & _). eapply axis_time; eauto.
    + apply (ele_trans _ (Fin s)); unfold is_time; eauto; [|cbn; lra].
      destruct Hok as (_ & _ & H). eapply axis_time; eauto.
Qed.

Lemma walk_good_cons cur e tx ty tz u path :
  wok cur e tx ty tz -> e <= u <= s ->
  ele (Fin u) tx -> ele (Fin u) ty -> ele (Fin u) tz ->
  walk_good u path -> walk_good e (cur :: path).
Proof using Hv.
  intros Hok Hu Hx Hy Hz (G1 & G2). split.
  - intros i [<-|Hi].
    + exists e. split; [lra|]. eapply wok_touches; eauto.
    + destruct (G1 i Hi) as (t & Ht & Htv). exists t. split; [lra|easy].
  - intros Hg t w Ht Hw Hin. destruct (Rle_or_lt t u) as [Htu|Htu].
    + left. left. symmetry. eapply touches_inside; [|exact Hin].
      apply (wok_touches cur t tx ty tz).
      destruct Hok as (H1 & H2 & H3).
      assert (T1 := axis_time _ _ _ _ _ _ _ _ H1). assert (T2 := axis_time _ _ _ _ _ _ _ _ H2).
      assert (T3 := axis_time _ _ _ _ _ _ _ _ H3).
      apply (wok_stay cur e); [split; [|split]; easy|lra| | |];
        apply (ele_trans _ (Fin u)); unfold is_time; eauto; cbn; lra.
    + destruct (G2 Hg t w) as [H|H]; [lra|easy|easy| |now right]. left. now right.
Qed.

Lemma walk_exact fuel : forall cur e tx ty tz path,
  wok cur e tx ty tz -> e <= s ->
  walk exact_ray g fuel (vec_of r) step fi cur tx ty tz = Some path ->
  walk_good e path.
Proof using Hv Hs Hsx Hsy Hsz Hfx Hfy Hfz.
  induction fuel as [|fuel IH]; intros cur e tx ty tz path Hok He Hw; [easy|].
  cbn [walk] in Hw. destruct (idx_eqb cur fi) eqn:Ec.
  { apply idx_eqb_eq in Ec. injection Hw as <-. split; [easy|].
    intros _ t u Ht _ Hin. right. rewrite <- Ec. eapply touches_inside; [|exact Hin].
    destruct Hok as (H1 & H2 & H3). subst cur. split; [|split].
    - eapply axis_between; eauto.
    - eapply axis_between; eauto.
    - eapply axis_between; eauto. }
  apply idx_eqb_neq in Ec.
  destruct (in_grid exact_ray g cur) eqn:Eg.
  2:{ injection Hw as <-. split; [easy|].
      intros Hg t u Ht Hu (I1 & I2 & I3). exfalso.
      destruct Hok as (H1 & H2 & H3).
      unfold in_grid, in_bounds3 in *. cbn [rg_nx rg_ny rg_nz g exact_grid] in *.
      assert (Hcases : ~ (0 <= ix cur < nx)%Z \/ ~ (0 <= iy cur < ny)%Z \/ ~ (0 <= iz cur < nz)%Z) by (clear - Eg; lia).
      assert (Hg3 : (0 <= ix si < nx)%Z /\ (0 <= iy si < ny)%Z /\ (0 <= iz si < nz)%Z) by (clear - Hg; lia).
      assert (Hu3 : (0 <= ix u < nx)%Z /\ (0 <= iy u < ny)%Z /\ (0 <= iz u < nz)%Z) by (clear - Hu; lia).
      destruct Hg3 as (G1 & G2 & G3), Hu3 as (U1 & U2 & U3).
      destruct Hcases as [Hc|[Hc|Hc]].
      - eapply (axis_left v (px p) (px r) s (ix si) (ix fi) (ix cur) e tx nx t (ix u)); eauto; lra.
      - eapply (axis_left v (py p) (py r) s (iy si) (iy fi) (iy cur) e ty ny t (iy u)); eauto; lra.
      - eapply (axis_left v (pz p) (pz r) s (iz si) (iz fi) (iz cur) e tz nz t (iz u)); eauto; lra. }
  pose proof Hok as (Hx & Hy & Hz).
  assert (Tx := axis_time _ _ _ _ _ _ _ _ Hx). assert (Ty := axis_time _ _ _ _ _ _ _ _ Hy).
  assert (Tz := axis_time _ _ _ _ _ _ _ _ Hz).
  cbn [r_leb exact_ray] in Hw.
  destruct (er_leb tx ty && er_leb tx tz) eqn:E1.
  { apply andb_true_iff in E1. destruct E1 as [L1 L2].
    apply leb_ele in L1; [|easy|easy]. apply leb_ele in L2; [|easy|easy].
    destruct (ix cur =? ix fi)%Z eqn:Ex.
    - cbn [obind] in Hw. injection Hw as <-.
      assert (Hst : ele (Fin s) tx)
        by (apply (axis_stop v (px p) (px r) s (ix si) (ix fi) (ix cur) e); eauto; lia).
      assert (Ts : is_time (Fin s)) by (right; eauto).
      eapply walk_good_stop; eauto; eapply (ele_trans _ tx); eauto.
    - destruct (axis_cross v (px p) (px r) s (ix si) (ix fi) (ix cur) e tx) as (u & Eu & Hu & Hnew); eauto; [lia|].
      assert (Tu : is_time (Fin u)) by (right; eauto).
      destruct (walk _ _ fuel _ _ _ _ _ _ _) as [rest|] eqn:Ew in Hw; [|easy].
      cbn [obind] in Hw. injection Hw as <-.
      rewrite Eu in L1, L2.
      apply (walk_good_cons cur e tx ty tz u); try easy.
      { rewrite Eu. apply ele_refl, Tu. }
      refine (IH _ u _ _ _ _ _ _ Ew); [|lra].
      split; [exact Hnew|]. split; eapply axis_stay; eauto; try lra. }
  destruct (er_leb ty tx && er_leb ty tz) eqn:E2.
  { clear E1. apply andb_true_iff in E2. destruct E2 as [L1 L2].
    apply leb_ele in L1; [|easy|easy]. apply leb_ele in L2; [|easy|easy].
    destruct (iy cur =? iy fi)%Z eqn:Ex.
    - cbn [obind] in Hw. injection Hw as <-.
      assert (Hst : ele (Fin s) ty)
        by (apply (axis_stop v (py p) (py r) s (iy si) (iy fi) (iy cur) e); eauto; lia).
      assert (Ts : is_time (Fin s)) by (right; eauto).
      eapply walk_good_stop; eauto; eapply (ele_trans _ ty); eauto.
    - destruct (axis_cross v (py p) (py r) s (iy si) (iy fi) (iy cur) e ty) as (u & Eu & Hu & Hnew); eauto; [lia|].
      assert (Tu : is_time (Fin u)) by (right; eauto).
      destruct (walk _ _ fuel _ _ _ _ _ _ _) as [rest|] eqn:Ew in Hw; [|easy].
      cbn [obind] in Hw. injection Hw as <-.
      rewrite Eu in L1, L2.
      apply (walk_good_cons cur e tx ty tz u); try easy.
      { rewrite Eu. apply ele_refl, Tu. }
      refine (IH _ u _ _ _ _ _ _ Ew); [|lra].
      split; [eapply axis_stay; eauto; lra|]. split; [exact Hnew|]. eapply axis_stay; eauto; lra. }
  assert (L : ele tz tx /\ ele tz ty).
  { assert (N1 : ~ (ele tx ty /\ ele tx tz)).
    { intros [A B]. apply leb_ele in A; [|easy|easy]. apply leb_ele in B; [|easy|easy].
      rewrite A, B in E1. easy. }
    assert (N2 : ~ (ele ty tx /\ ele ty tz)).
    { intros [A B]. apply leb_ele in A; [|easy|easy]. apply leb_ele in B; [|easy|easy].
      rewrite A, B in E2. easy. }
    destruct (er_leb tx ty) eqn:E.
    - assert (A : ele tx ty) by (apply leb_ele; easy).
      assert (B : ele tz tx) by (apply ele_total; [easy|easy|tauto]).
      split; [easy|]. eapply (ele_trans _ tx); eauto.
    - assert (A : ele ty tx).
      { apply ele_total; [easy|easy|]. intros C. apply leb_ele in C; [|easy|easy]. congruence. }
      assert (B : ele tz ty) by (apply ele_total; [easy|easy|tauto]).
      split; [|easy]. eapply (ele_trans _ ty); eauto. }
  destruct L as [L1 L2]. clear E1 E2.
  destruct (iz cur =? iz fi)%Z eqn:Ex.
  - cbn [obind] in Hw. injection Hw as <-.
    assert (Hst : ele (Fin s) tz)
        by (apply (axis_stop v (pz p) (pz r) s (iz si) (iz fi) (iz cur) e); eauto; lia).
    assert (Ts : is_time (Fin s)) by (right; eauto).
    eapply walk_good_stop; eauto; eapply (ele_trans _ tz); eauto.
  - destruct (axis_cross v (pz p) (pz r) s (iz si) (iz fi) (iz cur) e tz) as (u & Eu & Hu & Hnew); eauto; [lia|].
    assert (Tu : is_time (Fin u)) by (right; eauto).
    destruct (walk _ _ fuel _ _ _ _ _ _ _) as [rest|] eqn:Ew in Hw; [|easy].
    cbn [obind] in Hw. injection Hw as <-.
    rewrite Eu in L1, L2.
    apply (walk_good_cons cur e tx ty tz u); try easy.
    { rewrite Eu. apply ele_refl, Tu. }
    refine (IH _ u _ _ _ _ _ _ Ew); [|lra].
    split; [eapply axis_stay; eauto; lra|]. split; [eapply axis_stay; eauto; lra|]. exact Hnew.
Qed.

Lemma walk_exact_init fuel path :
  walk exact_ray g fuel (vec_of r) step fi si
    (first_t exact_ray g (Fin (px p)) (Fin (px r)) (ix si))
    (first_t exact_ray g (Fin (py p)) (Fin (py r)) (iy si))
    (first_t exact_ray g (Fin (pz p)) (Fin (pz r)) (iz si)) = Some path ->
  walk_good 0 path.
Proof using Hv Hs Hsx Hsy Hsz Hfx Hfy Hfz.
  intros Hw. eapply walk_exact; [|exact Hs|exact Hw].
  split; [|split]; eapply axis_init; eauto.
Qed.

End Walk.

(** ** One ray *)

Definition psub (a b : pt) : pt := (px a - px b, py a - py b, pz a - pz b).

Lemma norm_scale a b c k : 0 <= k ->
  sqrt ((k * a) * (k * a) + (k * b) * (k * b) + (k * c) * (k * c)) =
  k * sqrt (a * a + b * b + c * c).
Proof.
  intros Hk. replace ((k * a) * (k * a) + (k * b) * (k * b) + (k * c) * (k * c))
    with ((k * k) * (a * a + b * b + c * c)) by ring.
  rewrite sqrt_mult_alt by nra. now rewrite sqrt_square.
Qed.

Lemma dist_along o p l : 0 <= l -> dist o (along o p l) = l * dist o p.
Proof.
  intros Hl. unfold dist, along. cbn [px py pz fst snd]. rewrite <- norm_scale by easy.
  f_equal. ring.
Qed.

Lemma dist_along_end o e t : t <= 1 -> dist (along o e t) e = (1 - t) * dist o e.
Proof.
  intros Ht. unfold dist, along. cbn [px py pz fst snd]. rewrite <- norm_scale by lra.
  f_equal. ring.
Qed.

Lemma sumsq_zero a b c : a * a + b * b + c * c = 0 -> a = 0 /\ b = 0 /\ c = 0.
Proof.
  intros H. pose proof (Rle_0_sqr a). pose proof (Rle_0_sqr b). pose proof (Rle_0_sqr c).
  unfold Rsqr in *. split; [|split]; apply Rsqr_0_uniq; unfold Rsqr; lra.
Qed.

Lemma dist_nonneg a b : 0 <= dist a b.
Proof. apply sqrt_pos. Qed.

Lemma dist_zero a b : dist a b = 0 -> a = b.
Proof.
  unfold dist. intros H. apply sqrt_eq_0 in H.
  - apply sumsq_zero in H. destruct a as [[a1 a2] a3], b as [[b1 b2] b3].
    unfold px, py, pz in H. cbn [fst snd] in H. f_equal; [f_equal|]; lra.
  - pose proof (Rle_0_sqr (px b - px a)). pose proof (Rle_0_sqr (py b - py a)).
    pose proof (Rle_0_sqr (pz b - pz a)). unfold Rsqr in *. lra.
Qed.

Lemma ray_of_exact o p : ray_of exact_ray (vec_of o) (vec_of p) = vec_of (psub p o).
Proof. reflexivity. Qed.

Lemma length_of_exact o p :
  length_of exact_ray (vec_of (psub p o)) = Fin (dist o p).
Proof. reflexivity. Qed.

Lemma clipped_exact m o p : range_ok m ->
  is_clipped exact_ray m (vec_of (psub p o)) = true <-> ~ within_range m (dist o p).
Proof.
  intros Hm. unfold is_clipped. rewrite length_of_exact. destruct m as [r| | |]; cbn in *; try easy.
  destruct (Rlt_dec r (dist o p)); split; intros; try easy; lra.
Qed.

(** Fraction of the ray that is travelled. *)
Lemma cut_ratio m o p e : range_ok m -> cut_at m o p e ->
  exists s, 0 <= s <= 1 /\ e = along o p s /\
    final_point exact_ray m (vec_of o) (vec_of p) = vec_of e /\
    dist o e = s * dist o p.
Proof.
  intros Hm (l & Hl & He & Hd).
  assert (Hde : dist o e = l * dist o p) by (rewrite He; apply dist_along; lra).
  unfold final_point. rewrite ray_of_exact. unfold is_clipped. rewrite length_of_exact.
  assert (Hfree : e = p -> exists s, 0 <= s <= 1 /\ e = along o p s /\
    vec_of p = vec_of e /\ dist o e = s * dist o p).
  { intros ->. exists 1. split; [lra|]. split; [|split; [easy|lra]].
    unfold along. destruct p as [[a b] c]. cbn [px py pz fst snd]. f_equal; [f_equal|]; lra. }
  assert (Hfull : dist o e = dist o p -> e = p).
  { intros E. destruct (Req_dec (dist o p) 0) as [Z|Z].
    - rewrite Z in E. apply dist_zero in E, Z. congruence.
    - assert (l = 1) by (apply (Rmult_eq_reg_r (dist o p)); lra). subst l.
      rewrite He. unfold along. destruct p as [[a b] c]. cbn [px py pz fst snd]. f_equal; [f_equal|]; lra. }
  destruct m as [r| | |]; [|now apply Hfree, Hfull|easy|easy]. cbn [r_ltb exact_ray er_ltb].
  cbn in Hm. destruct (Rlt_dec r (dist o p)) as [Hc|Hc].
  - rewrite Rmin_right in Hd by lra.
    assert (Hp : dist o p <> 0) by lra.
    assert (El : l = r / dist o p).
    { apply (Rmult_eq_reg_r (dist o p)); [|easy]. rewrite <- Hde, Hd. field. easy. }
    exists l. split; [easy|]. split; [easy|]. split; [|easy].
    rewrite He. cbn. destruct (Req_EM_T (dist o p) 0); [easy|]. cbn. rewrite <- El.
    unfold vmap2, vmap, vx, vy, vz, vec_of, along, psub. cbn.
    f_equal; [f_equal|]; f_equal; ring.
  - apply Hfree, Hfull. rewrite Hd. apply Rmin_left. lra.
Qed.

Lemma voxel_of_exact v nx ny nz q :
  belongs_to_voxel v (voxel_of exact_ray (exact_grid v nx ny nz) (vec_of q)) q \/ ~ 0 < v.
Proof.
  destruct (Rlt_dec 0 v) as [Hv|Hv]; [left|now right].
  split; [|split]; apply slab_of_floor; easy.
Qed.

Lemma in_grid_box_iff v nx ny nz q : 0 < v ->
  in_grid exact_ray (exact_grid v nx ny nz)
    (voxel_of exact_ray (exact_grid v nx ny nz) (vec_of q)) = true <-> in_grid_box v nx ny nz q.
Proof.
  intros Hv.
  assert (Hax : forall x n, (0 <= Zfloor (x * / v) < n)%Z <-> 0 <= x < v * IZR n).
  { intros x n. destruct (slab_of_floor v x Hv) as [H1 H2]. split; intros [A B].
    - split.
      + apply IZR_le in A. pose proof (Rmult_le_compat_r v _ _ (Rlt_le _ _ Hv) A). lra.
      + assert (C : IZR (Zfloor (x * / v)) + 1 <= IZR n) by (rewrite <- plus_IZR; apply IZR_le; lia).
        pose proof (Rmult_le_compat_r v _ _ (Rlt_le _ _ Hv) C). lra.
    - split.
      + apply Zfloor_lub. cbn. pose proof (Rinv_0_lt_compat v Hv). apply Rmult_le_pos; lra.
      + apply lt_IZR. apply (Rmult_lt_reg_r v); lra. }
  unfold in_grid, in_bounds3, voxel_of. cbn [rg_nx rg_ny rg_nz rg_inv exact_grid ix iy iz fst snd].
  unfold vx, vy, vz. cbn [r_floor r_mul exact_ray vec_of fst snd er_mul er_floor].
  unfold in_grid_box. rewrite <- !Hax. lia.
Qed.

(** The slab loop never moves the start past a time at which the ray is in the grid. *)
Lemma slab_axis_exact a tm d p size t0 res :
  0 <= a <= t0 -> is_time tm -> 0 <= p + d * t0 <= size ->
  slab_axis exact_ray (Fin a, tm) (Fin d, Fin p, Fin size) = Some res ->
  exists a' tm', res = (Fin a', tm') /\ 0 <= a' <= t0 /\ is_time tm'.
Proof.
  intros Ha Htm Hin. unfold slab_axis. cbn -[Rlt_dec Rle_dec er_ltb er_leb].
  destruct (er_ltb (Fin (Rabs d)) (Fin (/ 10000000000))) eqn:Eflat.
  { destruct (er_leb _ _ && _); [|easy]. intros E. injection E as <-.
    exists a, tm. auto. }
  assert (Hd : d <> 0).
  { intros ->. rewrite Rabs_R0 in Eflat. cbn in Eflat. destruct (Rlt_dec _ _); [easy|lra]. }
  destruct (Req_EM_T d 0); [easy|]. cbn -[Rlt_dec Rle_dec er_ltb er_leb].
  set (lo := (0 + - p) * (1 / d)). set (hi := (size + - p) * (1 / d)).
  set (t1 := if er_leb (Fin lo) (Fin hi) then Fin lo else Fin hi).
  set (t2 := if er_leb (Fin lo) (Fin hi) then Fin hi else Fin lo).
  assert (Elo : lo * d = - p) by (unfold lo; field; easy).
  assert (Ehi : hi * d = size - p) by (unfold hi; field; easy).
  assert (H1 : exists u1 u2, t1 = Fin u1 /\ t2 = Fin u2 /\ u1 <= t0).
  { unfold t1, t2, er_leb. destruct (Rle_dec lo hi) as [Hle|Hle].
    - exists lo, hi. split; [easy|]. split; [easy|].
      destruct (Rle_or_lt 0 d) as [Hp|Hn].
      + apply (Rmult_le_reg_r d); lra.
      + apply Rle_trans with hi; [easy|]. apply (Rmult_le_reg_r (- d)); lra.
    - exists hi, lo. split; [easy|]. split; [easy|].
      destruct (Rle_or_lt 0 d) as [Hp|Hn].
      + apply Rle_trans with lo; [lra|]. apply (Rmult_le_reg_r d); lra.
      + apply (Rmult_le_reg_r (- d)); lra. }
  destruct H1 as (u1 & u2 & Et1 & Et2 & Hu1). rewrite Et1, Et2.
  destruct (er_ltb (if er_ltb tm (Fin u2) then _ else _) _); [easy|].
  intros E. injection E as <-. cbn [er_ltb].
  assert (Ht' : is_time (if er_ltb tm (Fin u2) then Fin u2 else tm))
    by (destruct (er_ltb tm (Fin u2)); [right; eauto|easy]).
  destruct (Rlt_dec a u1).
  - exists u1. eexists. split; [reflexivity|]. split; [lra|easy].
  - exists a. eexists. split; [reflexivity|]. split; [lra|easy].
Qed.

Lemma start_point_outside v nx ny nz m o oi r len t0 ps :
  range_ok m -> len <> 0 -> length_of exact_ray (vec_of r) = Fin len ->
  in_grid exact_ray (exact_grid v nx ny nz) oi = false -> 0 <= t0 ->
  in_closed_grid_box v nx ny nz
    (px o + px r / len * t0, py o + py r / len * t0, pz o + pz r / len * t0) ->
  start_point exact_ray (exact_grid v nx ny nz) m (vec_of o) oi (vec_of r) = Some ps ->
  exists a, 0 <= a <= t0 /\
    ps = vec_of (px o + px r * ((a + / 10000000000) / len),
                 py o + py r * ((a + / 10000000000) / len),
                 pz o + pz r * ((a + / 10000000000) / len)).
Proof.
  intros Hm Hlen El Hg Ht0 (Bx & By & Bz) Hs.
  cbn [px py pz fst snd] in Bx, By, Bz.
  unfold start_point in Hs. rewrite Hg, El in Hs.
  assert (Ed : vmap exact_ray (fun x => r_div exact_ray x (Fin len)) (vec_of r) =
               vec_of (px r / len, py r / len, pz r / len)).
  { unfold vmap, vec_of, vx, vy, vz. cbn. destruct (Req_EM_T len 0); [easy|]. reflexivity. }
  rewrite Ed in Hs.
  cbn [ofold vec_of vx vy vz px py pz fst snd exact_grid rg_sx rg_sy rg_sz] in Hs.
  assert (Tm : is_time m) by (destruct m; unfold is_time; eauto; easy).
  match type of Hs with context [slab_axis ?a ?b ?c] =>
    destruct (slab_axis a b c) as [res|] eqn:E1; [|cbn [obind] in Hs; discriminate Hs] end.
  destruct (slab_axis_exact _ _ _ _ _ t0 res (conj (Rle_refl 0) Ht0) Tm Bx E1)
    as (a1 & m1 & -> & Ha1 & Tm1).
  cbn [obind] in Hs.
  match type of Hs with context [slab_axis ?a ?b ?c] =>
    destruct (slab_axis a b c) as [res|] eqn:E2; [|cbn [obind] in Hs; discriminate Hs] end.
  destruct (slab_axis_exact _ _ _ _ _ t0 res Ha1 Tm1 By E2) as (a2 & m2 & -> & Ha2 & Tm2).
  cbn [obind] in Hs.
  match type of Hs with context [slab_axis ?a ?b ?c] =>
    destruct (slab_axis a b c) as [res|] eqn:E3; [|cbn [obind] in Hs; discriminate Hs] end.
  destruct (slab_axis_exact _ _ _ _ _ t0 res Ha2 Tm2 Bz E3) as (a3 & m3 & -> & Ha3 & Tm3).
  cbn [obind fst] in Hs. exists a3. split; [easy|].
  injection Hs as <-. unfold vmap2, vmap, vec_of, vx, vy, vz. cbn.
  f_equal; [f_equal|]; f_equal; field; easy.
Qed.

Section Cast.
Variables (v : R) (nx ny nz : Z) (o p e : pt) (m : er).
Hypothesis Hv : 0 < v.
Hypothesis Hm : range_ok m.
Hypothesis Hcut : cut_at m o p e.
Let g := exact_grid v nx ny nz.

(** The ray starts within the part that is travelled. *)
Definition starts_on_segment : Prop :=
  in_grid_box v nx ny nz o \/
  exists t, 0 <= t <= 1 /\ in_closed_grid_box v nx ny nz (along o e t) /\
    / 10000000000 <= dist (along o e t) e.

Lemma cast_path_exact bs :
  starts_on_segment ->
  cast_point exact_ray g m (vec_of o) (voxel_of exact_ray g (vec_of o)) (vec_of p) = Some bs ->
  (bs = [] /\ ~ in_grid_box v nx ny nz o /\
   start_point exact_ray g m (vec_of o) (voxel_of exact_ray g (vec_of o)) (vec_of (psub p o)) = None) \/
  exists s tau path, 0 <= tau <= s /\ e = along o p s /\ s <= 1 /\
    (in_grid_box v nx ny nz o -> tau = 0) /\
    start_point exact_ray g m (vec_of o) (voxel_of exact_ray g (vec_of o)) (vec_of (psub p o)) =
      Some (vec_of (along o p tau)) /\
    let fi := voxel_of exact_ray g (vec_of e) in
    let si := voxel_of exact_ray g (vec_of (along o p tau)) in
    bs = (if in_grid exact_ray g fi
          then [(fi, negb (is_clipped exact_ray m (vec_of (psub p o))))] else [])
         ++ map (fun i => (i, false)) path /\
    walk_good v nx ny nz (along o p tau) (psub p o) (s - tau) si fi 0 path.
Proof using Hv Hm Hcut.
  intros Hstart Hc. destruct (cut_ratio m o p e Hm Hcut) as (s & Hs & He & Hfin & Hdist).
  unfold cast_point in Hc. rewrite ray_of_exact, Hfin in Hc.
  destruct (start_point exact_ray g m (vec_of o) (voxel_of exact_ray g (vec_of o)) (vec_of (psub p o)))
    as [ps|] eqn:Est.
  2:{ left. split; [congruence|]. split; [|easy]. intros Hbox. apply (in_grid_box_iff v nx ny nz o Hv) in Hbox.
      unfold start_point in Est. fold g in Hbox. now rewrite Hbox in Est. }
  right.
  assert (Hps : exists tau, 0 <= tau <= s /\ ps = vec_of (along o p tau) /\
    (in_grid_box v nx ny nz o -> tau = 0)).
  { destruct (in_grid exact_ray g (voxel_of exact_ray g (vec_of o))) eqn:Eg.
    - exists 0. split; [lra|]. split; [|easy].
      unfold start_point in Est. rewrite Eg in Est. injection Est as <-.
      unfold vec_of, along. cbn [px py pz fst snd]. f_equal; [f_equal|]; f_equal; ring.
    - assert (Hnb : ~ in_grid_box v nx ny nz o).
      { intros Hb. apply (in_grid_box_iff v nx ny nz o Hv) in Hb. fold g in Hb. congruence. }
      destruct Hstart as [Hb|(t & Ht & Hbox & Hend)]; [easy|].
      rewrite dist_along_end in Hend by lra. rewrite Hdist in Hend.
      pose proof (dist_nonneg o p) as Hd0.
      assert (Hlen : 0 < dist o p).
      { destruct Hd0 as [H|H]; [easy|]. rewrite <- H in Hend. lra. }
      destruct (start_point_outside v nx ny nz m o (voxel_of exact_ray g (vec_of o)) (psub p o)
        (dist o p) (t * (s * dist o p)) ps) as (a & Ha & Eps); try easy; try lra.
      { apply Rmult_le_pos; [lra|]. apply Rmult_le_pos; lra. }
      { assert (E : along o e t =
          (px o + px (psub p o) / dist o p * (t * (s * dist o p)),
           py o + py (psub p o) / dist o p * (t * (s * dist o p)),
           pz o + pz (psub p o) / dist o p * (t * (s * dist o p)))).
        { rewrite He. unfold along, psub. cbn [px py pz fst snd].
          f_equal; [f_equal|]; field; lra. }
        rewrite <- E. exact Hbox. }
      exists ((a + / 10000000000) / dist o p). split; [split|split; [|easy]].
      + apply Rmult_le_pos; [lra|]. apply Rlt_le, Rinv_0_lt_compat, Hlen.
      + apply (Rmult_le_reg_r (dist o p)); [easy|].
        unfold Rdiv. rewrite Rmult_assoc, Rinv_l by lra. lra.
      + rewrite Eps. unfold vec_of, along, psub. cbn [px py pz fst snd].
        f_equal; [f_equal|]; f_equal; field; lra. }
  destruct Hps as (tau & Htau & -> & Hin0).
  set (q := along o p tau) in *.
  set (si := voxel_of exact_ray g (vec_of q)) in *.
  set (fi := voxel_of exact_ray g (vec_of e)) in *.
  destruct (walk exact_ray g _ _ _ _ _ _ _ _) as [path|] eqn:Ew in Hc; [|easy].
  cbn [obind] in Hc. exists s, tau, path. split; [easy|]. split; [easy|]. split; [lra|]. split; [easy|].
  split; [reflexivity|]. cbv zeta. fold q si fi. split; [congruence|].
  assert (Epos : e = pos q (psub p o) (s - tau)).
  { rewrite He. unfold pos, q, along, psub. cbn [px py pz fst snd]. f_equal; [f_equal|]; ring. }
  assert (Hse : belongs_to_voxel v fi (pos q (psub p o) (s - tau))).
  { rewrite <- Epos. destruct (voxel_of_exact v nx ny nz e); [easy|lra]. }
  assert (Hsi : belongs_to_voxel v si q) by (destruct (voxel_of_exact v nx ny nz q); [easy|lra]).
  destruct Hse as (F1 & F2 & F3), Hsi as (S1 & S2 & S3).
  eapply (walk_exact_init v nx ny nz q (psub p o) (s - tau) si fi Hv ltac:(lra) S1 S2 S3 F1 F2 F3).
  exact Ew.
Qed.

Lemma pos_along tau s t : 0 <= tau <= s -> e = along o p s -> 0 <= t <= s - tau ->
  exists t', 0 <= t' <= 1 /\ pos (along o p tau) (psub p o) t = along o e t'.
Proof using Hcut.
  intros H1 -> H2. destruct (Req_dec s 0) as [->|Hs].
  - exists 0. split; [lra|]. unfold pos, along, psub. cbn [px py pz fst snd].
    assert (tau = 0) by lra. assert (t = 0) by lra. subst tau t. f_equal; [f_equal|]; ring.
  - exists ((tau + t) / s). assert (Hs0 : 0 < s) by lra. split.
    + split.
      * apply Rmult_le_pos; [lra|]. apply Rlt_le, Rinv_0_lt_compat, Hs0.
      * apply (Rmult_le_reg_r s); [easy|]. unfold Rdiv. rewrite Rmult_assoc, Rinv_l; lra.
    + unfold pos, along, psub. cbn [px py pz fst snd]. f_equal; [f_equal|]; field; lra.
Qed.

(** Marked voxels are on the segment. *)
Lemma cast_sound bs i :
  starts_on_segment ->
  cast_point exact_ray g m (vec_of o) (voxel_of exact_ray g (vec_of o)) (vec_of p) = Some bs ->
  (In (i, false) bs -> exists t, 0 <= t <= 1 /\ touches_voxel v i (along o e t)) /\
  (In (i, true) bs -> within_range m (dist o p) /\ belongs_to_voxel v i e).
Proof using Hv Hm Hcut.
  intros Hstart Hc. destruct (cast_path_exact bs Hstart Hc) as [(-> & _)|H]; [now split|].
  destruct H as (s & tau & path & Htau & He & Hs1 & _ & _ & Hbs & Hgood & _).
  set (fi := voxel_of exact_ray g (vec_of e)) in *.
  assert (Hfi : belongs_to_voxel v fi e) by (destruct (voxel_of_exact v nx ny nz e); [easy|lra]).
  split; intros Hin; rewrite Hbs in Hin; apply in_app_or in Hin; destruct Hin as [Hin|Hin].
  - destruct (in_grid exact_ray g fi); [|easy]. destruct Hin as [E|[]].
    assert (i = fi) as -> by congruence.
    exists 1. split; [lra|]. assert (Ee : along o e 1 = e).
    { unfold along. destruct e as [[a b] c]. cbn [px py pz fst snd]. f_equal; [f_equal|]; lra. }
    rewrite Ee. destruct Hfi as (H1 & H2 & H3). split; [lra|]. split; lra.
  - apply in_map_iff in Hin. destruct Hin as (j & E & Hj). assert (j = i) as -> by congruence.
    destruct (Hgood i Hj) as (t & Ht & Htv). 
    destruct (pos_along tau s t Htau He ltac:(lra)) as (t' & Ht' & E').
    exists t'. split; [easy|]. now rewrite <- E'.
  - destruct (in_grid exact_ray g fi); [|easy]. destruct Hin as [E|[]].
    assert (i = fi) as -> by congruence. split; [|easy].
    assert (Ec : is_clipped exact_ray m (vec_of (psub p o)) = false).
    { destruct (is_clipped exact_ray m (vec_of (psub p o))); [discriminate E|easy]. }
    destruct m as [r| | |]; cbn; try easy. unfold is_clipped in Ec. rewrite length_of_exact in Ec.
    cbn in Ec. destruct (Rlt_dec r (dist o p)); [easy|lra].
  - apply in_map_iff in Hin. destruct Hin as (j & E & Hj). discriminate E.
Qed.

(** Crossed voxels are marked. *)
Lemma cast_complete bs t i b :
  in_grid_box v nx ny nz o ->
  cast_point exact_ray g m (vec_of o) (voxel_of exact_ray g (vec_of o)) (vec_of p) = Some bs ->
  0 <= t <= 1 -> in_bounds3 nx ny nz i = true ->
  (inside_voxel v i (along o e t) -> ~ belongs_to_voxel v i e -> In (i, false) bs) /\
  (belongs_to_voxel v i e -> (b = true <-> within_range m (dist o p)) -> In (i, b) bs).
Proof using Hv Hm Hcut.
  intros Hbox Hc Ht Hi. destruct (cast_path_exact bs (or_introl Hbox) Hc) as [(_ & H & _)|H]; [easy|].
  destruct H as (s & tau & path & Htau & He & Hs1 & Htau0 & _ & Hbs & _ & Hgood).
  specialize (Htau0 Hbox). subst tau.
  assert (E0 : along o p 0 = o).
  { unfold along. destruct o as [[a1 a2] a3]. cbn [px py pz fst snd]. f_equal; [f_equal|]; ring. }
  rewrite E0 in Hgood.
  apply (in_grid_box_iff v nx ny nz o Hv) in Hbox. fold g in Hbox.
  set (fi := voxel_of exact_ray g (vec_of e)) in *.
  assert (Hfi : belongs_to_voxel v fi e) by (destruct (voxel_of_exact v nx ny nz e); [easy|lra]).
  rewrite Rminus_0_r in Hgood. split.
  - intros Hin Hne. rewrite Hbs. apply in_or_app. right.
    apply (in_map (fun i => (i, false)) path i).
    destruct (Hgood Hbox (s * t) i) as [H|H].
    + split; [apply Rmult_le_pos; lra|]. rewrite <- (Rmult_1_r s) at 2.
      apply Rmult_le_compat_l; lra.
    + exact Hi.
    + assert (E : pos o (psub p o) (s * t) = along o e t).
      { rewrite He. unfold pos, along, psub. cbn [px py pz fst snd]. f_equal; [f_equal|]; ring. }
      rewrite E. exact Hin.
    + exact H.
    + exfalso. apply Hne. now rewrite H.
  - intros Hb Hbm. assert (i = fi) as ->.
    { destruct Hb as (B1 & B2 & B3), Hfi as (F1 & F2 & F3).
      destruct i as [[i1 i2] i3]. rewrite (surjective_pairing fi), (surjective_pairing (fst fi)).
      unfold ix, iy, iz in *. cbn [fst snd] in *. 
      f_equal; [f_equal|]; eapply slab_of_unique; eauto. }
    assert (Hg : in_grid exact_ray g fi = true) by exact Hi.
    rewrite Hbs, Hg. left. f_equal.
    assert (Hcl := clipped_exact m o p Hm).
    destruct (is_clipped exact_ray m (vec_of (psub p o))), b; cbn [negb]; try easy; exfalso.
    + apply (proj1 Hcl eq_refl). now apply Hbm.
    + assert (W : within_range m (dist o p)).
      { destruct m as [r| | |]; cbn in *; try easy. destruct (Rle_or_lt (dist o p) r); [easy|].
        assert (false = true) by (apply Hcl; lra). easy. }
      apply Hbm in W. easy.
Qed.

End Cast.
