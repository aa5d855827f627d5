(** Rays of a sensor outside the grid, computed with rounding: where the walk begins. *)
From Coq Require Import ZArith Reals List Bool Lia Lra Psatz ZifyBool.
From Flocq Require Import Core.
From Verif Require Import Util Grid RaycastModel RaycastSpec RaycastProofs RayGeoSpec RayRoundSpec RayRoundProofs RayFarSpec.
Import ListNotations.
Local Open Scope R_scope.

(** [lia] with the facts on integers only. *)
Ltac keep_integers :=
  repeat match goal with
  | H : ?P |- _ => lazymatch type of P with
    | Prop => lazymatch P with
      | (_ <= _)%Z => fail | (_ < _)%Z => fail | (_ <= _ < _)%Z => fail | (_ <= _ <= _)%Z => fail
      | ~ (_ < _)%Z => fail | ~ (_ <= _)%Z => fail | (_ < _ \/ _ <= _)%Z => fail | @eq Z _ _ => fail | @eq bool _ _ => fail
      | (Z.abs _ <= _)%Z => fail | _ => clear H end
    | _ => fail end end.
Ltac zl := keep_integers; lia.

Section Far.
Variables (A : ray_arith) (fin : rT A -> bool) (val : rT A -> R) (u eta M L K lam : R).
Hypothesis RR : rounded_ray A fin val u eta M L.
Variables (g : ray_grid A) (N : Z).
Notation V := (val (rg_voxel A g)).
Notation inv := (val (rg_inv A g)).
Notation n := (IZR N).
Hypothesis HV : fin (rg_voxel A g) = true /\ 0 < V.
Hypothesis Hinv : fin (rg_inv A g) = true /\ Rabs (inv * V - 1) <= 4 * u.
Hypothesis HN : (1 <= N)%Z.
Hypothesis Hu : 0 < u.
Hypothesis Hsmall : n * (n + 128) * u <= 1.
Hypothesis Heta : 0 <= eta /\ eta <= u /\ eta <= u * V /\ eta * L <= u.
Hypothesis HK : 1 <= K /\ 16 * K <= L /\ n <= K.
Hypothesis HM : L <= M /\ L * V <= M /\ 8 * n <= lam * M /\ 0 < lam.

(** [S] bounds the coordinates, [th] is the smallest direction that is not taken as zero. *)
Variables (S th : R).
Hypothesis Htiny : fin (r_tiny A) = true /\ val (r_tiny A) = th.
Hypothesis Hone : fin (r_one A) = true /\ val (r_one A) = 1.
Hypothesis Hdiv0 : forall a b, fin a = true -> fin b = true -> val a = 0 -> val b <> 0 -> val (r_div A a b) = 0.
Hypothesis Hth : 0 < th <= 1 /\ 2 <= th * L.
Hypothesis HS : n * V <= S /\ th <= S /\ 8 * S <= th * (K * V).
Hypothesis Hfar : 256 * (u * S) <= V /\ 256 * (u * S) <= th.
Hypothesis Heta2 : 64 * eta <= u /\ 64 * eta <= u * V.

Lemma sizes : 0 < V /\ 0 < S /\ V <= S /\ 0 < u * S /\ u * V <= u * S /\ n * u * V <= u * S /\ u <= / 129 /\ 8 * S <= K * V /\
  0 < K * V /\ 16 * (K * V) <= M /\ 8 * S <= th * M /\ 2 <= th * M /\ 1 <= n /\ 0 <= eta /\ 1 <= M.
Proof.
  destruct HV as (_ & Vp), HK as (K1 & K2 & K3), HM as (M1 & M2 & _), Hth as ((T1 & T2) & T3), HS as (S1 & S2 & S3), Heta as (E0 & _).
  destruct (nu_small u N HN Hu Hsmall) as (NU & US & NP). pose proof (n_ge1 N HN) as N1.
  assert (V <= n * V) by (rewrite <- (Rmult_1_l V) at 1; apply Rmult_le_compat_r; lra).
  assert (Kv : 0 < K * V) by (apply Rmult_lt_0_compat; lra).
  assert (Ld : 16 * (K * V) <= L * V) by (rewrite <- Rmult_assoc; apply Rmult_le_compat_r; lra).
  assert (th * (K * V) <= 1 * (K * V)) by (apply Rmult_le_compat_r; lra).
  assert (th * (K * V) <= th * M) by (apply Rmult_le_compat_l; lra).
  assert (th * L <= th * M) by (apply Rmult_le_compat_l; lra).
  assert (u * V <= u * S) by (apply Rmult_le_compat_l; lra).
  assert (u * (n * V) <= u * S) by (apply Rmult_le_compat_l; lra).
  assert (0 < u * S) by (apply Rmult_lt_0_compat; lra). repeat split; lra.
Qed.

(** ** One axis of the slab test *)

(** The time at which a coordinate reaches [b]. *)
Lemma slab_time (b x d : rT A) B : fin b = true -> fin x = true -> fin d = true -> th <= Rabs (val d) <= 2 ->
  Rabs (val b - val x) <= B -> V <= B <= 3 * S ->
  let t := r_mul A (r_sub A b x) (r_div A (r_one A) d) in
  fin t = true /\ Rabs (val x + val t * val d - val b) <= 7 / 2 * (u * B).
Proof.
  intros Fb Fx Fd Hd Hb HB t. destruct Hone as (F1 & E1), Hth as ((T1 & T2) & T3), Heta2 as (Q1 & Q2).
  destruct sizes as (Vp & Sp & VS & US & UV & NUV & UL & SK & KV & KM & SM & TM & N1 & E0 & M1).
  assert (UB : u * V <= u * B) by (apply Rmult_le_compat_l; lra).
  assert (UB0 : u * B <= / 129 * B) by (apply Rmult_le_compat_r; lra).
  assert (B3 : 3 * S <= M) by lra.
  destruct (rr_sub _ _ _ _ _ _ _ RR b x Fb Fx) as (Fz & Dz); [lra|]. set (z := r_sub A b x) in *.
  assert (Dz' : Rabs (val z - (val b - val x)) <= u * B) by (eapply Rle_trans; [exact Dz|apply Rmult_le_compat_l; lra]).
  assert (Nd : val d <> 0) by (intros Q; rewrite Q, Rabs_R0 in Hd; lra).
  assert (Ad : 0 < Rabs (val d)) by lra.
  assert (Iv : Rabs (val (r_one A) / val d) = / Rabs (val d)).
  { rewrite E1. unfold Rdiv. rewrite Rmult_1_l. apply Rabs_inv. }
  assert (Id : / Rabs (val d) * Rabs (val d) = 1) by (apply Rinv_l; lra).
  assert (Ip : 0 < / Rabs (val d)) by (apply Rinv_0_lt_compat; lra).
  assert (It : th * / Rabs (val d) <= 1).
  { apply Rmult_le_reg_r with (Rabs (val d)); [lra|]. rewrite Rmult_assoc, Id. lra. }
  destruct (rr_div _ _ _ _ _ _ _ RR (r_one A) d F1 Fd Nd) as (Fw & Dw).
  { rewrite Iv. apply Rmult_le_reg_l with th; [lra|]. lra. }
  rewrite Iv in Dw. set (w := r_div A (r_one A) d) in *.
  assert (Wd : Rabs (val w * val d - 1) <= u + 2 * eta).
  { replace (val w * val d - 1) with ((val w - val (r_one A) / val d) * val d) by (rewrite E1; field; exact Nd).
    rewrite Rabs_mult. eapply Rle_trans; [apply Rmult_le_compat_r; [lra|exact Dw]|].
    replace ((u * / Rabs (val d) + eta) * Rabs (val d)) with (u * (/ Rabs (val d) * Rabs (val d)) + eta * Rabs (val d)) by ring.
    rewrite Id. assert (eta * Rabs (val d) <= eta * 2) by (apply Rmult_le_compat_l; lra). lra. }
  assert (Az : Rabs (val z) <= 130 / 129 * B).
  { replace (val z) with ((val z - (val b - val x)) + (val b - val x)) by ring. eapply Rle_trans; [apply Rabs_triang|]. lra. }
  assert (Wd2 : Rabs (val w * val d) <= 132 / 129).
  { replace (val w * val d) with ((val w * val d - 1) + 1) by ring. eapply Rle_trans; [apply Rabs_triang|]. rewrite (Rabs_pos_eq 1) by lra. lra. }
  assert (Aw : th * Rabs (val w) <= 132 / 129).
  { apply Rle_trans with (Rabs (val d) * Rabs (val w)); [apply Rmult_le_compat_r; [apply Rabs_pos|lra]|].
    rewrite <- Rabs_mult, Rmult_comm. exact Wd2. }
  assert (Zw : th * Rabs (val z * val w) <= 4 * S).
  { rewrite Rabs_mult. replace (th * (Rabs (val z) * Rabs (val w))) with (Rabs (val z) * (th * Rabs (val w))) by ring.
    apply Rle_trans with (130 / 129 * B * (132 / 129)); [apply Rmult_le_compat; try assumption; [apply Rabs_pos|]|lra].
    apply Rmult_le_pos; [lra|apply Rabs_pos]. }
  destruct (rr_mul _ _ _ _ _ _ _ RR z w Fz Fw) as (Ft & Dt & _).
  { apply Rmult_le_reg_l with th; [lra|]. lra. }
  split; [exact Ft|]. fold t in Dt.
  assert (P1 : Rabs (val z * val w * val d) <= 132 / 129 * (130 / 129 * B)).
  { rewrite Rmult_assoc, Rabs_mult, Rmult_comm. apply Rmult_le_compat; try assumption; apply Rabs_pos. }
  assert (P2 : Rabs ((val t - val z * val w) * val d) <= u * (132 / 129 * (130 / 129 * B)) + 2 * eta).
  { rewrite Rabs_mult. eapply Rle_trans; [apply Rmult_le_compat_r; [lra|exact Dt]|].
    rewrite Rmult_plus_distr_r, Rmult_assoc, <- Rabs_mult.
    assert (eta * Rabs (val d) <= eta * 2) by (apply Rmult_le_compat_l; lra).
    assert (u * Rabs (val z * val w * val d) <= u * (132 / 129 * (130 / 129 * B))) by (apply Rmult_le_compat_l; lra). lra. }
  assert (P3 : Rabs (val z * (val w * val d - 1)) <= 130 / 129 * B * (u + 2 * eta)).
  { rewrite Rabs_mult. apply Rmult_le_compat; try assumption; apply Rabs_pos. }
  assert (P4 : B * (64 * eta) <= B * u) by (apply Rmult_le_compat_l; lra).
  replace (val x + val t * val d - val b) with ((val t - val z * val w) * val d + (val z * (val w * val d - 1) + (val z - (val b - val x)))) by ring.
  eapply Rle_trans; [apply Rabs_triang|].
  assert (P5 : Rabs (val z * (val w * val d - 1) + (val z - (val b - val x))) <= 130 / 129 * B * (u + 2 * eta) + u * B)
    by (eapply Rle_trans; [apply Rabs_triang|lra]).
  assert (UP : 0 <= u * B) by (apply Rmult_le_pos; lra). clear - P2 P5 P4 Q2 UB UP. lra.
Qed.

(** The smaller of the two times is that of the side where the ray enters. *)
Definition enters (d x w t : R) : Prop :=
  (0 < d -> Rabs (x + t * d) <= 11 * (u * S)) /\ (d < 0 -> Rabs (x + t * d - w) <= 11 * (u * S)) /\ th * Rabs t <= 3 * S.

(** What holds of an axis after the test. *)
Definition entered (tm d x w : R) : Prop :=
  (Rabs d < th /\ - (3 * (u * S)) <= x <= w + 3 * (u * S)) \/ (th <= Rabs d /\ exists t, t <= tm /\ enters d x w t).

(** The time interval of the test. *)
Definition span (t : rT A * rT A) : Prop :=
  fin (fst t) = true /\ 0 <= val (fst t) /\ th * val (fst t) <= 3 * S /\
  (snd t = r_inf A \/ (fin (snd t) = true /\ val (fst t) <= val (snd t))).

Lemma slab_axis_round (t : rT A * rT A) (d x sz : rT A) (na : Z) :
  span t -> fin d = true -> Rabs (val d) <= 2 -> fin x = true -> Rabs (val x) <= S ->
  fin sz = true -> Rabs (val sz - IZR na * V) <= 3 * (u * S) -> (1 <= na <= N)%Z ->
  (slab_axis A t (d, x, sz) = None /\ Rabs (val d) < th /\ (val x < 0 \/ val sz <= val x)) \/
  (exists t', slab_axis A t (d, x, sz) = Some t' /\ span t' /\ val (fst t) <= val (fst t') /\
    entered (val (fst t')) (val d) (val x) (IZR na * V) /\
    (val (fst t') = val (fst t) \/ (th <= Rabs (val d) /\ enters (val d) (val x) (IZR na * V) (val (fst t'))))).
Proof.
  intros HT Fd Hd Fx Hx Fs Hs Hna. destruct t as (tmin, tmax). destruct HT as (Fm & Pm & Bm & Hmax). cbn [fst snd] in Fm, Pm, Bm, Hmax.
  destruct Hfar as (Far1 & Far2).
  destruct sizes as (Vp & Sp & VS & US & UV & NUV & UL & SK & KV & KM & SM & TM & N1 & E0 & M1).
  destruct Htiny as (Ft & Et), (rr_zero _ _ _ _ _ _ _ RR) as (F0 & Z0), Hth as ((T1 & T2) & T3), HS as (S1 & S2 & S3).
  assert (Wb : V <= IZR na * V <= S).
  { split; [rewrite <- (Rmult_1_l V) at 1; apply Rmult_le_compat_r; [lra|apply IZR_le; zl]|].
    apply Rle_trans with (2 := S1). apply Rmult_le_compat_r; [lra|apply IZR_le; zl]. }
  set (W := IZR na * V) in *. clearbody W.
  destruct (rr_abs _ _ _ _ _ _ _ RR d Fd) as (Fa & Ea).
  unfold slab_axis. rewrite (rr_ltb _ _ _ _ _ _ _ RR) by assumption. rewrite Ea, Et.
  destruct (Rlt_bool_spec (Rabs (val d)) th) as [Q|Q].
  - rewrite (rr_leb _ _ _ _ _ _ _ RR), (rr_ltb _ _ _ _ _ _ _ RR) by assumption. rewrite Z0.
    destruct (Rle_bool_spec 0 (val x)) as [Q1|Q1]; cbn [andb]; [|left; split; [reflexivity|split; [exact Q|now left]]].
    destruct (Rlt_bool_spec (val x) (val sz)) as [Q2|Q2]; [|left; split; [reflexivity|split; [exact Q|now right]]].
    right. exists (tmin, tmax). cbn [fst snd]. split; [reflexivity|]. split; [repeat split; assumption|].
    split; [lra|]. split; [left|now left]. split; [exact Q|]. apply Rabs_le_inv in Hs. lra.
  - apply Rabs_le_inv in Hx, Hs.
    destruct (slab_time (r_zero A) x d S F0 Fx Fd (conj Q Hd)) as (Fl & Dl); [rewrite Z0; apply Rabs_le; lra|lra|].
    destruct (slab_time sz x d (202 / 100 * S) Fs Fx Fd (conj Q Hd)) as (Fh & Dh); [apply Rabs_le; lra|lra|].
    set (tlow := r_mul A (r_sub A (r_zero A) x) (r_div A (r_one A) d)) in *.
    set (thigh := r_mul A (r_sub A sz x) (r_div A (r_one A) d)) in *.
    rewrite Z0, Rminus_0_r in Dl. apply Rabs_le_inv in Dl, Dh.
    assert (Gap : (0 < val d -> val tlow < val thigh) /\ (val d < 0 -> val thigh < val tlow)).
    { assert (G : 0 < (val thigh - val tlow) * val d) by lra. split; intros D.
      - assert (0 < val thigh - val tlow); [|lra]. apply Rmult_lt_reg_r with (val d); [exact D|]. lra.
      - assert (0 < val tlow - val thigh); [|lra]. apply Rmult_lt_reg_r with (- val d); lra. }
    assert (Bt : forall q, Rabs (val x + q * val d) <= 11 * (u * S) \/ Rabs (val x + q * val d - W) <= 11 * (u * S) -> th * Rabs q <= 3 * S).
    { intros q Hq. apply Rle_trans with (Rabs q * Rabs (val d)).
      - rewrite Rmult_comm. apply Rmult_le_compat_l; [apply Rabs_pos|exact Q].
      - rewrite <- Rabs_mult. destruct Hq as [Hq|Hq]; apply Rabs_le_inv in Hq; apply Rabs_le; lra. }
    set (t1 := if r_leb A tlow thigh then tlow else thigh). set (t2 := if r_leb A tlow thigh then thigh else tlow).
    assert (F1 : fin t1 = true /\ fin t2 = true /\ val t1 <= val t2 /\ enters (val d) (val x) W (val t1)).
    { unfold t1, t2. rewrite (rr_leb _ _ _ _ _ _ _ RR) by assumption. destruct Gap as (G1 & G2).
      destruct (Rle_bool_spec (val tlow) (val thigh)) as [C|C]; (split; [assumption|]); (split; [assumption|]); (split; [lra|]).
      - assert (~ val d < 0) by (intros D; specialize (G2 D); lra).
        assert (B : Rabs (val x + val tlow * val d) <= 11 * (u * S)) by (apply Rabs_le; lra).
        split; [intros _; exact B|]. split; [easy|apply Bt; now left].
      - assert (~ 0 < val d) by (intros D; specialize (G1 D); lra).
        assert (B : Rabs (val x + val thigh * val d - W) <= 11 * (u * S)) by (apply Rabs_le; lra).
        split; [easy|]. split; [intros _; exact B|apply Bt; now right]. }
    destruct F1 as (F1 & F2 & L12 & En). clearbody t1 t2. clear Dl Dh Gap Fl Fh tlow thigh.
    rewrite (rr_ltb _ _ _ _ _ _ _ RR tmin t1) by assumption.
    set (tmin' := if Rlt_bool (val tmin) (val t1) then t1 else tmin).
    assert (Hmin : fin tmin' = true /\ val tmin <= val tmin' /\ val t1 <= val tmin' /\ th * val tmin' <= 3 * S /\ (tmin' = tmin \/ tmin' = t1)).
    { unfold tmin'. destruct (Rlt_bool_spec (val tmin) (val t1)); (split; [assumption|]); (split; [lra|]); (split; [lra|]).
      - split; [|now right]. destruct En as (_ & _ & En). rewrite Rabs_pos_eq in En by lra. exact En.
      - split; [exact Bm|now left]. }
    destruct Hmin as (Fm' & M2 & M3 & M4 & M5).
    set (tmax' := if r_ltb A tmax t2 then t2 else tmax).
    assert (Hmx : tmax' = r_inf A \/ (fin tmax' = true /\ val tmin' <= val tmax')).
    { unfold tmax'. destruct Hmax as [->|(Fx2 & Hx2)]; [rewrite (rr_inf _ _ _ _ _ _ _ RR); now left|right].
      rewrite (rr_ltb _ _ _ _ _ _ _ RR) by assumption. destruct (Rlt_bool_spec (val tmax) (val t2)); (split; [assumption|]);
      unfold tmin'; destruct (Rlt_bool_spec (val tmin) (val t1)); lra. }
    assert (NL : r_ltb A tmax' tmin' = false).
    { destruct Hmx as [->|(Fx3 & Hx3)]; [apply (rr_inf _ _ _ _ _ _ _ RR)|]. rewrite (rr_ltb _ _ _ _ _ _ _ RR) by assumption.
      apply Rlt_bool_false. exact Hx3. }
    rewrite NL. right. exists (tmin', tmax'). cbn [fst snd]. split; [reflexivity|].
    split; [split; [exact Fm'|]; split; [cbn [fst]; lra|]; split; [exact M4|exact Hmx]|]. split; [exact M2|]. split.
    + right. split; [exact Q|]. exists (val t1). split; [exact M3|exact En].
    + destruct M5 as [->| ->]; [now left|right; split; [exact Q|exact En]].
Qed.

(** ** The ray *)

Inductive axis : Set := AX | AY | AZ.
Definition co (a : axis) (v : vec A) : rT A := match a with AX => vx A v | AY => vy A v | AZ => vz A v end.
Definition cn (a : axis) : Z := match a with AX => rg_nx A g | AY => rg_ny A g | AZ => rg_nz A g end.
Definition cs (a : axis) : rT A := match a with AX => rg_sx A g | AY => rg_sy A g | AZ => rg_sz A g end.
Definition ci (a : axis) (i : idx) : Z := match a with AX => ix i | AY => iy i | AZ => iz i end.

Hypothesis Hsz : forall a, fin (cs a) = true /\ Rabs (val (cs a) - IZR (cn a) * V) <= 3 * (u * S).
Hypothesis Hn : forall a, (1 <= cn a <= N)%Z.

Lemma norm_ge (x y z : R) : Rabs x <= sqrt (x * x + y * y + z * z) /\ Rabs y <= sqrt (x * x + y * y + z * z) /\ Rabs z <= sqrt (x * x + y * y + z * z).
Proof.
  rewrite <- !sqrt_Rsqr_abs. unfold Rsqr. pose proof (Rle_0_sqr x). pose proof (Rle_0_sqr y). pose proof (Rle_0_sqr z). unfold Rsqr in *.
  repeat split; apply sqrt_le_1_alt; lra.
Qed.

Lemma norm_le (x y z b : R) : 0 <= b -> Rabs x <= b -> Rabs y <= b -> Rabs z <= b -> sqrt (x * x + y * y + z * z) <= 7 / 4 * b.
Proof.
  intros B X Y Z. assert (Q : forall a, Rabs a <= b -> a * a <= b * b).
  { intros a Ha. change (Rsqr a <= Rsqr b). apply Rsqr_le_abs_1. now rewrite (Rabs_pos_eq b). }
  pose proof (Q x X). pose proof (Q y Y). pose proof (Q z Z).
  assert (0 <= b * b) by (apply Rmult_le_pos; lra).
  rewrite <- (sqrt_Rsqr (7 / 4 * b)) by lra. apply sqrt_le_1_alt. unfold Rsqr. lra.
Qed.

Lemma norm_axis (x y z : R) (l := sqrt (x * x + y * y + z * z)) : l <= 2 * Rabs x \/ l <= 2 * Rabs y \/ l <= 2 * Rabs z.
Proof.
  set (b := Rmax (Rabs x) (Rmax (Rabs y) (Rabs z))).
  assert (H : l <= 7 / 4 * b).
  { apply norm_le; unfold b, Rmax; repeat destruct Rle_dec; pose proof (Rabs_pos x); pose proof (Rabs_pos y); pose proof (Rabs_pos z); lra. }
  pose proof (Rabs_pos x). pose proof (Rabs_pos y). pose proof (Rabs_pos z).
  unfold b, Rmax in H. repeat destruct Rle_dec; lra.
Qed.

Section Ray.
Variables (m : rT A) (o p : vec A).
Notation r := (ray_of A o p).
Notation len := (length_of A r).
Notation La := (val len).
Notation dir := (vmap A (fun x => r_div A x len) r).
Notation l := (sqrt (val (vx A r) * val (vx A r) + val (vy A r) * val (vy A r) + val (vz A r) * val (vz A r))).
Hypothesis Hco : forall a, fin (co a o) = true /\ fin (co a p) = true /\ Rabs (val (co a o)) <= S /\ Rabs (val (co a p)) <= S.
Hypothesis Hlen : fin len = true /\ Rabs (La - l) <= 6 * u * l.
Hypothesis Hpos : 0 < l.
Hypothesis Hm : m = r_inf A \/ (fin m = true /\ 0 <= val m).

Lemma ray_axis a : fin (co a r) = true /\
  Rabs (val (co a r) - (val (co a p) - val (co a o))) <= 2 * (u * S) /\ Rabs (val (co a r)) <= 2 * (130 / 129) * S /\
  (val (co a r) = 0 -> val (co a p) = val (co a o)).
Proof.
  destruct (Hco a) as (F1 & F2 & B1 & B2).
  destruct sizes as (Vp & Sp & VS & US & UV & NUV & UL & SK & KV & KM & SM & TM & N1 & E0 & M1).
  destruct (diff_val A fin val u eta M L K lam RR g N HV HN Hu Hsmall HK HM _ _ F1 F2 ltac:(lra) ltac:(lra)) as (Fr & Dr & _ & _ & _ & _ & _ & S3).
  replace (co a r) with (r_sub A (co a p) (co a o)) by (destruct a; reflexivity).
  assert (B : Rabs (val (co a p) - val (co a o)) <= 2 * S) by (apply Rabs_le_inv in B1, B2; apply Rabs_le; lra).
  assert (D : Rabs (val (r_sub A (co a p) (co a o)) - (val (co a p) - val (co a o))) <= 2 * (u * S)).
  { eapply Rle_trans; [exact Dr|]. replace (2 * (u * S)) with (u * (2 * S)) by ring. apply Rmult_le_compat_l; lra. }
  split; [exact Fr|]. split; [exact D|]. split.
  - assert (u * S <= / 129 * S) by (apply Rmult_le_compat_r; lra).
    apply Rabs_le_inv in D, B. apply Rabs_le. lra.
  - intros Q. specialize (S3 Q). lra.
Qed.

Lemma len_facts : 0 < La /\ La <= 4 * S /\ (forall a, Rabs (val (co a r)) <= 20 / 19 * La) /\ (exists a, 9 / 10 * La <= 2 * Rabs (val (co a r))) /\
  La <> 0 /\ fin len = true.
Proof.
  destruct Hlen as (Fl & Dl).
  destruct sizes as (Vp & Sp & VS & US & UV & NUV & UL & SK & KV & KM & SM & TM & N1 & E0 & M1).
  assert (UL6 : 6 * u * l <= 6 * / 129 * l) by (apply Rmult_le_compat_r; lra). apply Rabs_le_inv in Dl.
  destruct (norm_ge (val (vx A r)) (val (vy A r)) (val (vz A r))) as (G1 & G2 & G3).
  assert (Hle : l <= 7 / 4 * (2 * (130 / 129) * S)).
  { apply norm_le; [lra|exact (proj1 (proj2 (proj2 (ray_axis AX))))|exact (proj1 (proj2 (proj2 (ray_axis AY))))|
      exact (proj1 (proj2 (proj2 (ray_axis AZ))))]. }
  split; [lra|]. split; [lra|]. split; [intros []; cbn [co]; lra|]. split; [|split; [lra|exact Fl]].
  destruct (norm_axis (val (vx A r)) (val (vy A r)) (val (vz A r))) as [Q|[Q|Q]]; [exists AX|exists AY|exists AZ]; cbn [co]; lra.
Qed.

Lemma dir_axis a : fin (co a dir) = true /\ Rabs (val (co a dir) - val (co a r) / La) <= 2 * u /\ Rabs (val (co a dir)) <= 9 / 8 /\
  (val (co a r) = 0 -> val (co a dir) = 0).
Proof.
  replace (co a dir) with (r_div A (co a r) len) by (destruct a; reflexivity).
  destruct len_facts as (L0 & L4 & L1 & _ & LN & Fl). destruct (ray_axis a) as (Fr & _). specialize (L1 a). destruct Heta2 as (Q1 & _).
  destruct sizes as (Vp & Sp & VS & US & UV & NUV & UL & SK & KV & KM & SM & TM & N1 & E0 & M1).
  assert (B : Rabs (val (co a r) / La) <= 20 / 19).
  { unfold Rdiv. rewrite Rabs_mult, (Rabs_pos_eq (/ La)) by (left; now apply Rinv_0_lt_compat).
    apply Rmult_le_reg_r with La; [exact L0|]. rewrite Rmult_assoc, Rinv_l by exact LN. lra. }
  assert (M2 : 2 <= M) by (destruct Hth as ((T1 & T2) & _); assert (th * M <= 1 * M) by (apply Rmult_le_compat_r; lra); lra).
  destruct (rr_div _ _ _ _ _ _ _ RR (co a r) len Fr Fl LN ltac:(lra)) as (Fd & Dd).
  assert (UB : u * Rabs (val (co a r) / La) <= u * (20 / 19)) by (apply Rmult_le_compat_l; lra).
  assert (D : Rabs (val (r_div A (co a r) len) - val (co a r) / La) <= 2 * u) by lra.
  split; [exact Fd|]. split; [exact D|]. split.
  - apply Rabs_le_inv in D, B. apply Rabs_le. lra.
  - intros Q. apply Hdiv0; assumption.
Qed.

Lemma dir_main : exists a, 2 / 5 <= Rabs (val (co a dir)).
Proof.
  destruct len_facts as (L0 & _ & _ & (a & Ha) & LN & _). exists a. destruct (dir_axis a) as (_ & D & _).
  destruct sizes as (Vp & Sp & VS & US & UV & NUV & UL & SK & KV & KM & SM & TM & N1 & E0 & M1).
  assert (B : 9 / 20 <= Rabs (val (co a r) / La)).
  { unfold Rdiv at 2. rewrite Rabs_mult, (Rabs_pos_eq (/ La)) by (left; now apply Rinv_0_lt_compat).
    apply Rmult_le_reg_r with La; [exact L0|]. rewrite Rmult_assoc, Rinv_l by exact LN. lra. }
  replace (val (co a dir)) with (val (co a r) / La - (val (co a r) / La - val (co a dir))) by ring.
  rewrite Rabs_minus_sym in D. eapply Rle_trans; [|apply Rabs_triang_inv]. lra.
Qed.

(** ** The start of the walk *)

Lemma entered_later tm tm' d x w : entered tm d x w -> tm <= tm' -> entered tm' d x w.
Proof. intros [H|(H & t & Ht & E)] Q; [now left|right]. split; [exact H|]. exists t. split; [lra|exact E]. Qed.

Record starts (ps : vec A) (tm T : R) : Prop := {
  st_tm : 0 <= tm /\ th * tm <= 3 * S;
  st_T : Rabs (T - (tm + th)) <= u * (tm + th) /\ 0 <= T /\ th * T <= 5 * S;
  st_in a : entered tm (val (co a dir)) (val (co a o)) (IZR (cn a) * V);
  st_src : tm = 0 \/ exists a, th <= Rabs (val (co a dir)) /\ enters (val (co a dir)) (val (co a o)) (IZR (cn a) * V) tm;
  st_ps a : fin (co a ps) = true /\ Rabs (val (co a ps)) <= 4 * K * V /\
    (let X := val (co a o) + T * val (co a dir) in
     Rabs (val (co a ps) - X) <= 65 / 64 * (u * Rabs (T * val (co a dir))) + u * Rabs X + u * S / 32) /\
    (val (co a dir) = 0 -> val (co a ps) = val (co a o)) }.

Lemma start_axis (x d T : rT A) : fin x = true -> Rabs (val x) <= S -> fin d = true -> Rabs (val d) <= 9 / 8 -> fin T = true ->
  0 <= val T -> th * val T <= 5 * S ->
  let ps := r_add A x (r_mul A d T) in
  fin ps = true /\ Rabs (val ps) <= 4 * K * V /\
  (let X := val x + val T * val d in Rabs (val ps - X) <= 65 / 64 * (u * Rabs (val T * val d)) + u * Rabs X + u * S / 32) /\
  (val d = 0 -> val ps = val x).
Proof.
  intros Fx Hx Fd Hd FT PT HT ps.
  destruct sizes as (Vp & Sp & VS & US & UV & NUV & UL & SK & KV & KM & SM & TM & N1 & E0 & M1).
  destruct HS as (S1 & S2 & S3), Hth as ((T1 & T2) & T3), Heta2 as (Q1 & Q2).
  assert (B : Rabs (val d * val T) <= 3 / 4 * (K * V)).
  { apply Rmult_le_reg_l with th; [lra|]. rewrite Rabs_mult, (Rabs_pos_eq (val T)) by lra.
    replace (th * (Rabs (val d) * val T)) with (Rabs (val d) * (th * val T)) by ring.
    apply Rle_trans with (9 / 8 * (5 * S)); [|lra]. apply Rmult_le_compat; [apply Rabs_pos|apply Rmult_le_pos; lra|lra|lra]. }
  destruct (rr_mul _ _ _ _ _ _ _ RR d T Fd FT ltac:(lra)) as (Fw & Dw & W0 & W1). set (w := r_mul A d T) in *.
  set (y := val d * val T) in *.
  assert (UY : u * Rabs y <= / 129 * Rabs y) by (apply Rmult_le_compat_r; [apply Rabs_pos|lra]).
  assert (EV : 64 * eta <= S) by (assert (u * V <= / 129 * V) by (apply Rmult_le_compat_r; lra); lra).
  assert (Bw : Rabs (val w) <= 4 / 5 * (K * V) + S).
  { replace (val w) with ((val w - y) + y) by ring. eapply Rle_trans; [apply Rabs_triang|]. lra. }
  assert (Bx : Rabs (val x + val w) <= 2 * (K * V)) by (eapply Rle_trans; [apply Rabs_triang|]; lra).
  destruct (rr_add _ _ _ _ _ _ _ RR x w Fx Fw ltac:(lra)) as (Fp & Dp & P0 & P1). fold ps in Fp, Dp, P0, P1.
  assert (UX : u * Rabs (val x + val w) <= / 129 * Rabs (val x + val w)) by (apply Rmult_le_compat_r; [apply Rabs_pos|lra]).
  split; [exact Fp|]. split; [|split].
  - replace (val ps) with ((val ps - (val x + val w)) + (val x + val w)) by ring. eapply Rle_trans; [apply Rabs_triang|]. lra.
  - cbv zeta. rewrite (Rmult_comm (val T)). fold y.
    assert (Bz : Rabs (val x + val w) <= Rabs (val x + y) + (u * Rabs y + eta)).
    { replace (val x + val w) with ((val x + y) + (val w - y)) by ring. eapply Rle_trans; [apply Rabs_triang|]. lra. }
    assert (Bu : u * Rabs (val x + val w) <= u * (Rabs (val x + y) + (u * Rabs y + eta))) by (apply Rmult_le_compat_l; lra).
    assert (UU : u * (u * Rabs y) <= / 129 * (u * Rabs y)) by (apply Rmult_le_compat_r; [apply Rmult_le_pos; [lra|apply Rabs_pos]|lra]).
    assert (UE : u * eta <= / 129 * eta) by (apply Rmult_le_compat_r; lra).
    assert (YP : 0 <= u * Rabs y) by (apply Rmult_le_pos; [lra|apply Rabs_pos]).
    replace (val ps - (val x + y)) with ((val ps - (val x + val w)) + (val w - y)) by ring. eapply Rle_trans; [apply Rabs_triang|].
    clear - Bu UU UE YP Dp Dw Q2 UV US E0. lra.
  - intros Q. unfold y in W0, W1. rewrite Q, Rmult_0_l in W0, W1. assert (val w = 0) by lra. specialize (P0 ltac:(lra)). specialize (P1 ltac:(lra)). lra.
Qed.

Lemma start_round oi : in_grid A g oi = false ->
  (start_point A g m o oi r = None /\ exists a, Rabs (val (co a dir)) < th /\ (val (co a o) < 0 \/ val (cs a) <= val (co a o))) \/
  (exists ps tm T, start_point A g m o oi r = Some ps /\ starts ps tm T).
Proof.
  intros Hg. unfold start_point. rewrite Hg.
  destruct sizes as (Vp & Sp & VS & US & UV & NUV & UL & SK & KV & KM & SM & TM & N1 & E0 & M1).
  destruct HS as (S1 & S2 & S3), Hth as ((T1 & T2) & T3), Htiny as (Ft & Et).
  assert (Sp0 : span (r_zero A, m)).
  { destruct (rr_zero _ _ _ _ _ _ _ RR) as (F0 & Z0). split; [exact F0|]. cbn [fst snd]. rewrite Z0. split; [lra|]. split; [lra|exact Hm]. }
  assert (Ax : forall a t, span t -> 
    (slab_axis A t (co a dir, co a o, cs a) = None /\ Rabs (val (co a dir)) < th /\ (val (co a o) < 0 \/ val (cs a) <= val (co a o))) \/
    (exists t', slab_axis A t (co a dir, co a o, cs a) = Some t' /\ span t' /\ val (fst t) <= val (fst t') /\
    entered (val (fst t')) (val (co a dir)) (val (co a o)) (IZR (cn a) * V) /\
    (val (fst t') = val (fst t) \/ (th <= Rabs (val (co a dir)) /\ enters (val (co a dir)) (val (co a o)) (IZR (cn a) * V) (val (fst t')))))).
  { intros a t Ht. destruct (dir_axis a) as (Fd & _ & Bd & _), (Hco a) as (Fo & _ & Bo & _), (Hsz a) as (Fs & Bs).
    apply slab_axis_round; try assumption; [lra|apply Hn]. }
  cbn [ofold]. change (vx A dir) with (co AX dir). change (vy A dir) with (co AY dir). change (vz A dir) with (co AZ dir).
  change (vx A o) with (co AX o). change (vy A o) with (co AY o). change (vz A o) with (co AZ o).
  change (rg_sx A g) with (cs AX). change (rg_sy A g) with (cs AY). change (rg_sz A g) with (cs AZ).
  destruct (Ax AX _ Sp0) as [(-> & No)|(t1 & -> & P1 & L1 & I1 & R1)]; [left; split; [reflexivity|exists AX; exact No]|]. cbn [obind].
  destruct (Ax AY _ P1) as [(-> & No)|(t2 & -> & P2 & L2 & I2 & R2)]; [left; split; [reflexivity|exists AY; exact No]|]. cbn [obind].
  destruct (Ax AZ _ P2) as [(-> & No)|(t3 & -> & P3 & L3 & I3 & R3)]; [left; split; [reflexivity|exists AZ; exact No]|]. cbn [obind].
  right. destruct P3 as (F3 & Q3 & B3 & _). set (tm := val (fst t3)) in *.
  assert (MT : Rabs (val (fst t3) + val (r_tiny A)) <= M).
  { rewrite Et. fold tm. rewrite Rabs_pos_eq by lra. apply Rmult_le_reg_l with th; [lra|].
    assert (th * th <= 1 * th) by (apply Rmult_le_compat_r; lra). lra. }
  destruct (rr_add _ _ _ _ _ _ _ RR (fst t3) (r_tiny A) F3 Ft MT) as (FT & DT & _). rewrite Et in DT. fold tm in DT.
  rewrite (Rabs_pos_eq (tm + th)) in DT by lra. set (T := r_add A (fst t3) (r_tiny A)) in *.
  assert (UT : u * (tm + th) <= / 129 * (tm + th)) by (apply Rmult_le_compat_r; lra).
  assert (PT : 0 <= val T) by (apply Rabs_le_inv in DT; lra).
  assert (BT : th * val T <= 5 * S).
  { apply Rle_trans with (th * (130 / 129 * (tm + th))); [apply Rmult_le_compat_l; [lra|]; apply Rabs_le_inv in DT; lra|].
    assert (th * th <= 1 * th) by (apply Rmult_le_compat_r; lra). lra. }
  exists (vmap2 A (r_add A) o (vmap A (fun x => r_mul A x T) dir)), tm, (val T). split; [reflexivity|]. split.
  - split; [exact Q3|exact B3].
  - split; [exact DT|]. split; [exact PT|exact BT].
  - intros []; [apply (entered_later (val (fst t1)))|apply (entered_later (val (fst t2)))|]; try assumption; lra.
  - destruct R3 as [R3|R3]; [|right; exists AZ; exact R3]. fold tm in R3. rewrite R3.
    destruct R2 as [R2|R2]; [|right; exists AY; exact R2]. rewrite R2.
    destruct R1 as [R1|R1]; [|right; exists AX; exact R1]. rewrite R1. left. apply (rr_zero _ _ _ _ _ _ _ RR).
  - intros a. destruct (dir_axis a) as (Fd & _ & Bd & _), (Hco a) as (Fo & _ & Bo & _).
    replace (co a (vmap2 A (r_add A) o (vmap A (fun x => r_mul A x T) dir))) with (r_add A (co a o) (r_mul A (co a dir) T)) by (destruct a; reflexivity).
    apply start_axis; assumption.
Qed.

Notation si ps := (voxel_of A g ps).
Notation fi := (voxel_of A g (final_point A m o p)).
Notation s := (ray_part A val m o p).

Lemma ci_voxel a q : ci a (voxel_of A g q) = r_floor A (r_mul A (co a q) (rg_inv A g)).
Proof. destruct a; reflexivity. Qed.

Lemma index_far a q : fin (co a q) = true -> Rabs (val (co a q)) <= 4 * K * V ->
  index_ok A val g N (8 * n * u * V) (val (co a q)) (ci a (voxel_of A g q)).
Proof. intros F B. rewrite ci_voxel. exact (index_near A fin val u eta M L K lam RR g N HV Hinv HN Hu Hsmall Heta HK HM _ F B). Qed.

Lemma grid_ci i : in_grid A g i = true <-> forall a, (0 <= ci a i < cn a)%Z.
Proof.
  unfold in_grid, in_bounds3. split.
  - intros H [] ; cbn [ci cn]; zl.
  - intros H. pose proof (H AX). pose proof (H AY). pose proof (H AZ). cbn [ci cn] in *. zl.
Qed.

Lemma not_grid_ci i : in_grid A g i = false -> exists a, (ci a i < 0 \/ cn a <= ci a i)%Z.
Proof.
  unfold in_grid, in_bounds3. intros H.
  destruct (Z_lt_dec (ix i) 0); [exists AX; cbn [ci cn]; zl|]. destruct (Z_le_dec (rg_nx A g) (ix i)); [exists AX; cbn [ci cn]; zl|].
  destruct (Z_lt_dec (iy i) 0); [exists AY; cbn [ci cn]; zl|]. destruct (Z_le_dec (rg_ny A g) (iy i)); [exists AY; cbn [ci cn]; zl|].
  exists AZ. cbn [ci cn]. zl.
Qed.

Lemma width a : V <= IZR (cn a) * V <= S.
Proof.
  destruct (Hn a) as (N1 & N2). destruct HV as (_ & Vp), HS as (S1 & _). split.
  - rewrite <- (Rmult_1_l V) at 1. apply Rmult_le_compat_r; [lra|apply IZR_le; exact N1].
  - apply Rle_trans with (2 := S1). apply Rmult_le_compat_r; [lra|apply IZR_le; exact N2].
Qed.

Lemma index_in a q : fin (co a q) = true -> Rabs (val (co a q)) <= 4 * K * V -> (0 <= ci a (voxel_of A g q) < cn a)%Z ->
  - (8 * (u * S)) <= val (co a q) <= IZR (cn a) * V + 8 * (u * S).
Proof.
  intros F B H. pose proof (index_far a q F B) as I. destruct (Hn a) as (N1 & N2).
  destruct sizes as (Vp & Sp & VS & US & UV & NUV & _).
  destruct (I 0%Z ltac:(zl)) as (I1 & _). specialize (I1 ltac:(zl)). destruct (I (cn a) ltac:(zl)) as (_ & I2). specialize (I2 ltac:(zl)). lra.
Qed.

Lemma index_out a q : fin (co a q) = true -> Rabs (val (co a q)) <= 4 * K * V -> (ci a (voxel_of A g q) < 0 \/ cn a <= ci a (voxel_of A g q))%Z ->
  val (co a q) <= 8 * (u * S) \/ IZR (cn a) * V - 8 * (u * S) <= val (co a q).
Proof.
  intros F B H. pose proof (index_far a q F B) as I. destruct (Hn a) as (N1 & N2).
  destruct sizes as (Vp & Sp & VS & US & UV & NUV & _). destruct H as [H|H]; [left|right].
  - destruct (I 0%Z ltac:(zl)) as (_ & I1). specialize (I1 ltac:(zl)). lra.
  - destruct (I (cn a) ltac:(zl)) as (I1 & _). specialize (I1 ltac:(zl)). lra.
Qed.

(** A walk that begins in the grid begins close to the ray. *)
Lemma start_on_ray ps tm T : starts ps tm T -> in_grid A g (si ps) = true ->
  0 <= T <= 6 * S /\ forall a, Rabs (val (co a ps) - (val (co a o) + T / La * val (co a r))) <= 18 * (u * S).
Proof.
  intros ST G. destruct sizes as (Vp & Sp & VS & US & UV & NUV & UL & SK & KV & KM & SM & TM & N1 & E0 & M1).
  destruct Hfar as (Far1 & Far2). pose proof (proj1 (grid_ci _) G) as Gc. destruct (st_T _ _ _ ST) as (_ & T0 & _).
  assert (Y : forall a, Rabs (T * val (co a dir)) <= 21 / 10 * S /\ Rabs (val (co a ps) - (val (co a o) + T * val (co a dir))) <= 6 * (u * S)).
  { intros a. destruct (st_ps _ _ _ ST a) as (F & B & D & _). cbv zeta in D. pose proof (index_in a ps F B (Gc a)) as I.
    destruct (Hco a) as (_ & _ & Bo & _). pose proof (width a) as Wd. set (y := T * val (co a dir)) in *.
    assert (X : Rabs (val (co a o) + y) <= S + Rabs y) by (eapply Rle_trans; [apply Rabs_triang|lra]).
    assert (UX : u * Rabs (val (co a o) + y) <= u * (S + Rabs y)) by (apply Rmult_le_compat_l; lra).
    assert (UY : u * Rabs y <= / 129 * Rabs y) by (apply Rmult_le_compat_r; [apply Rabs_pos|lra]).
    assert (By : Rabs y <= 21 / 10 * S).
    { assert (Q : Rabs y <= Rabs (val (co a ps)) + Rabs (val (co a o)) + Rabs (val (co a ps) - (val (co a o) + y))).
      { replace y with (val (co a ps) + (- val (co a o) + - (val (co a ps) - (val (co a o) + y)))) at 1 by ring.
        eapply Rle_trans; [apply Rabs_triang|]. rewrite Rplus_assoc. apply Rplus_le_compat_l.
        eapply Rle_trans; [apply Rabs_triang|]. rewrite !Rabs_Ropp. lra. }
      assert (Rabs (val (co a ps)) <= S + 8 * (u * S)) by (apply Rabs_le; lra). lra. }
    split; [exact By|]. assert (u * Rabs y <= u * (21 / 10 * S)) by (apply Rmult_le_compat_l; lra). lra. }
  assert (TB : T <= 6 * S).
  { destruct dir_main as (a & Ha). destruct (Y a) as (Q & _). rewrite Rabs_mult, (Rabs_pos_eq T) in Q by lra.
    assert (T * (2 / 5) <= T * Rabs (val (co a dir))) by (apply Rmult_le_compat_l; lra). lra. }
  split; [lra|]. intros a. destruct (Y a) as (_ & D). destruct (dir_axis a) as (_ & Dd & _).
  assert (Q : Rabs (T * val (co a dir) - T / La * val (co a r)) <= 12 * (u * S)).
  { replace (T * val (co a dir) - T / La * val (co a r)) with (T * (val (co a dir) - val (co a r) / La)) by (unfold Rdiv; ring).
    rewrite Rabs_mult, (Rabs_pos_eq T) by lra. replace (12 * (u * S)) with (6 * S * (2 * u)) by ring.
    apply Rmult_le_compat; try lra. apply Rabs_pos. }
  replace (val (co a ps) - (val (co a o) + T / La * val (co a r)))
    with ((val (co a ps) - (val (co a o) + T * val (co a dir))) + (T * val (co a dir) - T / La * val (co a r))) by ring.
  eapply Rle_trans; [apply Rabs_triang|]. lra.
Qed.

(** The end of the ray. *)
Lemma part_range : 0 <= s <= 1.
Proof.
  unfold ray_part. destruct (is_clipped A m r) eqn:Q; [|lra]. unfold is_clipped in Q. destruct Hm as [->|(Fm & Pm)].
  - rewrite (rr_inf _ _ _ _ _ _ _ RR) in Q. easy.
  - apply (rr_clip _ _ _ _ _ _ _ RR m len Fm Pm Q).
Qed.

Lemma end_on_ray a : fin (co a (final_point A m o p)) = true /\ Rabs (val (co a (final_point A m o p))) <= 4 * K * V /\
  Rabs (val (co a (final_point A m o p)) - (val (co a o) + s * val (co a r))) <= 8 * (u * S) /\
  (val (co a r) = 0 -> val (co a (final_point A m o p)) = val (co a o)).
Proof.
  destruct sizes as (Vp & Sp & VS & US & UV & NUV & UL & SK & KV & KM & SM & TM & N1 & E0 & M1).
  destruct (Hco a) as (F1 & F2 & B1 & B2). destruct (ray_axis a) as (Fr & Dr & Br & Zr). pose proof part_range as Hs. destruct Heta2 as (Q1 & Q2).
  unfold ray_part in *. unfold final_point. destruct (is_clipped A m r) eqn:Q.
  - assert (Fq : fin (r_div A m len) = true).
    { unfold is_clipped in Q. destruct Hm as [->|(Fm & Pm)]; [rewrite (rr_inf _ _ _ _ _ _ _ RR) in Q; easy|].
      apply (rr_clip _ _ _ _ _ _ _ RR m len Fm Pm Q). }
    set (q := r_div A m len) in *.
    replace (co a (vmap2 A (r_add A) o (vmap A (fun x => r_mul A x q) r))) with (r_add A (co a o) (r_mul A (co a r) q)) by (destruct a; reflexivity).
    set (x := co a o) in *. set (rr := co a r) in *. clearbody x rr q.
    assert (B : Rabs (val rr * val q) <= 2 * (130 / 129) * S).
    { rewrite Rabs_mult, (Rabs_pos_eq (val q)) by lra. rewrite <- (Rmult_1_r (2 * (130 / 129) * S)). apply Rmult_le_compat; try lra. apply Rabs_pos. }
    destruct (rr_mul _ _ _ _ _ _ _ RR rr q Fr Fq ltac:(lra)) as (Fw & Dw & W0 & W1). set (w := r_mul A rr q) in *.
    assert (UB : u * Rabs (val rr * val q) <= u * (2 * (130 / 129) * S)) by (apply Rmult_le_compat_l; lra).
    assert (Dw2 : Rabs (val w - val rr * val q) <= 3 * (u * S)) by lra.
    assert (u * S <= / 129 * S) by (apply Rmult_le_compat_r; lra).
    assert (Bw : Rabs (val x + val w) <= 4 * S) by (apply Rabs_le_inv in B1, B, Dw2; apply Rabs_le; lra).
    destruct (rr_add _ _ _ _ _ _ _ RR x w F1 Fw ltac:(lra)) as (Fp & Dp & P0 & P1). set (pf := r_add A x w) in *.
    assert (UW : u * Rabs (val x + val w) <= u * (4 * S)) by (apply Rmult_le_compat_l; lra).
    split; [exact Fp|]. apply Rabs_le_inv in Dp, Dw2, Bw. split; [apply Rabs_le; lra|]. split; [apply Rabs_le; lra|].
    intros Z. rewrite Z, Rmult_0_l in W0, W1. assert (val w = 0) by lra. specialize (P0 ltac:(lra)). specialize (P1 ltac:(lra)). lra.
  - split; [exact F2|]. split; [lra|]. split; [|exact Zr]. rewrite Rmult_1_l. apply Rabs_le_inv in Dr. apply Rabs_le. lra.
Qed.

Lemma floor_close (x y : rT A) : fin x = true -> fin y = true -> Rabs (val x) <= (n + 1) * V -> Rabs (val y - val x) <= V / 4 ->
  Rabs (val y) <= 4 * K * V ->
  (Z.abs (r_floor A (r_mul A y (rg_inv A g)) - r_floor A (r_mul A x (rg_inv A g))) <= 1)%Z.
Proof.
  intros Fx Fy Bx D By. destruct sizes as (Vp & Sp & VS & US & UV & NUV & UL & SK & KV & KM & SM & TM & N1 & E0 & M1).
  destruct HK as (K1 & K2 & K3), Hinv as (FI & HI), HM as (M2 & M3 & _), Heta as (_ & Eu & _). destruct (nu_small u N HN Hu Hsmall) as (NU & _ & NP).
  assert (nV : n * V <= K * V) by (apply Rmult_le_compat_r; lra).
  assert (Bx4 : Rabs (val x) <= 4 * K * V). { assert (1 * V <= K * V) by (apply Rmult_le_compat_r; lra). lra. }
  assert (W : forall z, fin z = true -> Rabs (val z) <= (n + 2) * V -> Rabs (val z) <= 4 * K * V ->
    exists q, r_floor A (r_mul A z (rg_inv A g)) = Zfloor q /\ Rabs (q - val z / V) <= / 4).
  { intros z Fz Bz Bz4. exists (val (r_mul A z (rg_inv A g))).
    split; [exact (floor_val A fin val u eta M L K lam RR g N HV Hinv HN Hu Hsmall Heta HK HM _ Fz Bz4)|].
    pose proof (scaled_bound A fin val u L K g N HV Hinv HN Hu Hsmall HK _ Bz4) as SB.
    destruct (rr_mul _ _ _ _ _ _ _ RR z (rg_inv A g) Fz FI ltac:(lra)) as (_ & Dm & _).
    set (y' := val z / V) in *. assert (Ez : val z = y' * V) by (unfold y'; field; lra).
    assert (Hy : Rabs y' <= n + 2).
    { apply Rmult_le_reg_r with V; [exact Vp|]. rewrite <- (Rabs_pos_eq V) at 1 by lra. rewrite <- Rabs_mult, <- Ez. exact Bz. }
    assert (D1 : Rabs (val z * inv - y') <= (n + 2) * (4 * u)).
    { replace (val z * inv - y') with (y' * (inv * V - 1)) by (rewrite Ez; ring). rewrite Rabs_mult.
      apply Rmult_le_compat; try assumption; apply Rabs_pos. }
    assert (D2 : Rabs (val z * inv) <= (n + 2) * (1 + 4 * u)).
    { replace (val z * inv) with ((val z * inv - y') + y') by ring. eapply Rle_trans; [apply Rabs_triang|]. lra. }
    assert (D3 : u * Rabs (val z * inv) <= u * ((n + 2) * (1 + 4 * u))) by (apply Rmult_le_compat_l; lra).
    assert (D4 : u * (n * u) <= / 129 * (n * u)) by (apply Rmult_le_compat_r; lra).
    assert (D5 : u * u <= / 129 * u) by (apply Rmult_le_compat_r; lra).
    replace (val (r_mul A z (rg_inv A g)) - y') with ((val (r_mul A z (rg_inv A g)) - val z * inv) + (val z * inv - y')) by ring.
    eapply Rle_trans; [apply Rabs_triang|]. lra. }
  destruct (W x Fx ltac:(lra) Bx4) as (a & -> & Da).
  assert (By2 : Rabs (val y) <= (n + 2) * V).
  { replace (val y) with ((val y - val x) + val x) by ring. eapply Rle_trans; [apply Rabs_triang|]. lra. }
  destruct (W y Fy By2 By) as (b & -> & Db).
  assert (Dxy : Rabs (val y / V - val x / V) <= / 4).
  { replace (val y / V - val x / V) with ((val y - val x) / V) by (field; lra). unfold Rdiv. rewrite Rabs_mult, (Rabs_pos_eq (/ V)) by (left; now apply Rinv_0_lt_compat).
    apply Rmult_le_reg_r with V; [exact Vp|]. rewrite Rmult_assoc, Rinv_l by lra. lra. }
  apply Rabs_le_inv in Da, Db, Dxy.
  pose proof (Zfloor_lb a). pose proof (Zfloor_ub a). pose proof (Zfloor_lb b). pose proof (Zfloor_ub b).
  assert (Zfloor b < Zfloor a + 2)%Z by (apply lt_IZR; rewrite plus_IZR; lra).
  assert (Zfloor a < Zfloor b + 2)%Z by (apply lt_IZR; rewrite plus_IZR; lra). zl.
Qed.

Lemma index_moved e x y i d : index_ok A val g N e y i -> Rabs (y - x) <= d -> index_ok A val g N (e + d) x i.
Proof.
  intros H D k Hk. destruct (H k Hk) as (H1 & H2). apply Rabs_le_inv in D. split; intros Q; [specialize (H1 Q)|specialize (H2 Q)]; lra.
Qed.

Hypothesis Hnt : forall a, not_tiny (2 * lam * V) (val (co a p) - val (co a o)).

Lemma ray_size a : val (co a r) = 0 \/ lam * V <= Rabs (val (co a r)) <= L * V.
Proof.
  destruct (Hco a) as (F1 & F2 & B1 & B2).
  destruct sizes as (Vp & Sp & VS & US & UV & NUV & UL & SK & KV & KM & SM & TM & N1 & E0 & M1). destruct HK as (K1 & K2 & K3).
  destruct (diff_val A fin val u eta M L K lam RR g N HV HN Hu Hsmall HK HM _ _ F1 F2 ltac:(lra) ltac:(lra)) as (_ & _ & Dd & R1 & R2 & _).
  replace (co a r) with (r_sub A (co a p) (co a o)) by (destruct a; reflexivity).
  assert (Ld : 16 * (K * V) <= L * V) by (rewrite <- Rmult_assoc; apply Rmult_le_compat_r; lra).
  destruct (Hnt a) as [Q|Q]; [left|right; lra]. rewrite Q, Rabs_R0 in R1. unfold Rabs in R1.
  destruct (Rcase_abs (val (r_sub A (co a p) (co a o)))); lra.
Qed.

(** The walk follows the ray on every axis, from where it begins. *)
Lemma far_axis ps tm T a : starts ps tm T -> in_grid A g (si ps) = true -> T / La <= s ->
  exists rho, axis_line A fin val u L lam g N (64 * (u * S)) (co a ps) (co a r) rho (ci a (si ps)) (ci a fi) (cn a) (s - T / La) /\
  forall t, T / La <= t <= s ->
    Rabs (val (co a o) + t * (val (co a p) - val (co a o)) - (val (co a ps) + (t - T / La) * rho)) <= 64 * (u * S).
Proof.
  intros ST G Hs. destruct sizes as (Vp & Sp & VS & US & UV & NUV & UL & SK & KV & KM & SM & TM & N1 & E0 & M1).
  destruct (start_on_ray ps tm T ST G) as ((T0 & _) & Dps). specialize (Dps a). destruct (st_ps _ _ _ ST a) as (Fps & Bps & _ & Zps).
  destruct (end_on_ray a) as (Fpf & Bpf & Dpf & Zpf). destruct (ray_axis a) as (Fr & Dr & _ & _). pose proof part_range as Hs1.
  destruct (dir_axis a) as (_ & _ & _ & Zd). pose proof (ray_size a) as RS. destruct len_facts as (L0 & _).
  pose proof (proj1 (grid_ci _) G a) as Ga. pose proof (index_in a ps Fps Bps Ga) as Ips. pose proof (width a) as Wd. destruct (Hn a) as (_ & Na).
  pose proof (index_far a ps Fps Bps) as Is. pose proof (index_far a _ Fpf Bpf) as If. destruct Hfar as (Far1 & Far2).
  assert (Hcl : Rabs (val (co a (final_point A m o p)) - val (co a ps)) <= V / 4 -> (Z.abs (ci a fi - ci a (si ps)) <= 1)%Z).
  { intros Q. rewrite !ci_voxel. apply floor_close; try assumption. apply Rabs_le.
    assert (IZR (cn a) * V <= n * V) by (apply Rmult_le_compat_r; [lra|apply IZR_le; exact Na]). lra. }
  assert (Heq : val (co a r) = 0 -> ci a fi = ci a (si ps)).
  { intros Q. rewrite !ci_voxel. apply (floor_eq A fin val u eta M L K lam RR g N HV Hinv HN Hu Hsmall Heta HK HM); try assumption.
    rewrite (Zpf Q), (Zps (Zd Q)). reflexivity. }
  set (tau := T / La) in *. assert (Ht : 0 <= tau) by (apply Rmult_le_pos; [lra|left; now apply Rinv_0_lt_compat]).
  set (pf := co a (final_point A m o p)) in *. set (i := ci a (si ps)) in *. set (j := ci a fi) in *.
  set (x := val (co a o)) in *. set (y := val (co a p)) in *. set (rr := co a r) in *. set (q := co a ps) in *. set (w := IZR (cn a) * V) in *.
  clearbody tau pf x y q w j i rr.
  assert (Dt : forall t, 0 <= t <= 1 -> Rabs (t * (y - x) - t * val rr) <= 2 * (u * S)).
  { intros t Q. rewrite Rabs_minus_sym. replace (t * val rr - t * (y - x)) with (t * (val rr - (y - x))) by ring. rewrite Rabs_mult, (Rabs_pos_eq t) by lra.
    rewrite <- (Rmult_1_l (2 * (u * S))). apply Rmult_le_compat; try lra. apply Rabs_pos. }
  assert (De : Rabs (val pf - (val q + (s - tau) * val rr)) <= 26 * (u * S)).
  { apply Rabs_le_inv in Dpf, Dps. apply Rabs_le. lra. }
  assert (NP : 0 <= n * u * V) by (apply Rmult_le_pos; [apply Rmult_le_pos; lra|lra]).
  destruct (Z_lt_dec 0 ((j - i) * (if Rlt_dec (val rr) 0 then -1 else 1) + 1)) as [C|C].
  - exists (val rr). split.
    + constructor.
      * split; [exact Fps|exact Fr].
      * exact Is.
      * split; [exact Ga|exact Na].
      * intros k Hk. destruct (index_moved _ _ _ _ _ If De k Hk) as (A1 & A2). split; intros Q; [specialize (A1 Q)|specialize (A2 Q)]; lra.
      * split; [|split]; intros Q.
        -- destruct (Rlt_dec (val rr) 0); [lra|zl].
        -- destruct (Rlt_dec (val rr) 0); [zl|lra].
        -- left. split; [exact Q|exact (Heq Q)].
      * now left.
      * exact RS.
      * lra.
    + intros t Q. specialize (Dt t ltac:(lra)). apply Rabs_le_inv in Dps, Dt. apply Rabs_le. lra.
  - assert (Nr : val rr <> 0).
    { intros Q. specialize (Heq Q). destruct (Rlt_dec (val rr) 0); [lra|zl]. }
    assert (Loose : Rabs ((s - tau) * val rr) <= 42 * (u * S) /\ Rabs (val pf - val q) <= 26 * (u * S)).
    { apply Rabs_le_inv in De. destruct (Rlt_dec (val rr) 0) as [Q|Q].
      - assert (Hij : (i < j)%Z) by zl. assert (P : (s - tau) * val rr <= 0) by (apply Rmult_le_0_l || nra).
        destruct (Is (i + 1)%Z ltac:(zl)) as (_ & A1). specialize (A1 ltac:(zl)). destruct (If (i + 1)%Z ltac:(zl)) as (A2 & _). specialize (A2 ltac:(zl)).
        split; apply Rabs_le; lra.
      - assert (Hij : (j < i)%Z) by zl. assert (P : 0 <= (s - tau) * val rr) by (apply Rmult_le_pos; lra).
        destruct (Is i ltac:(zl)) as (A1 & _). specialize (A1 ltac:(zl)). destruct (If i ltac:(zl)) as (_ & A2). specialize (A2 ltac:(zl)).
        split; apply Rabs_le; lra. }
    destruct Loose as (Lo & Lp). specialize (Hcl ltac:(lra)).
    exists 0. split.
    + constructor.
      * split; [exact Fps|exact Fr].
      * exact Is.
      * split; [exact Ga|exact Na].
      * rewrite Rmult_0_r, Rplus_0_r. intros k Hk. destruct (index_moved _ _ _ _ _ If Lp k Hk) as (A1 & A2). split; intros Q; [specialize (A1 Q)|specialize (A2 Q)]; lra.
      * split; [intros Q; lra|]. split; [intros Q; lra|]. intros _. right. split; [exact Nr|]. destruct (Rlt_dec (val rr) 0); zl.
      * now right.
      * exact RS.
      * lra.
    + intros t Q. specialize (Dt t ltac:(lra)). rewrite Rmult_0_r, Rplus_0_r.
      assert (Rabs ((t - tau) * val rr) <= Rabs ((s - tau) * val rr)).
      { rewrite !Rabs_mult, (Rabs_pos_eq (t - tau)), (Rabs_pos_eq (s - tau)) by lra. apply Rmult_le_compat_r; [apply Rabs_pos|lra]. }
      assert (B : Rabs ((t - tau) * val rr) <= 42 * (u * S)) by lra.
      apply Rabs_le_inv in Dps, Dt, B. apply Rabs_le. lra.
Qed.

(** ** Points deep in the grid are reached *)

Variable e : R.
Notation P := (u * S * S / th).
Hypothesis He : n * (n + 64) * u * V + 256 * (u * S) + 16 * th + 8 * (S * th) + 100 * P <= e.

Lemma e_parts : 256 * (u * S) + 16 * th + 8 * (S * th) + 100 * P <= e /\ n * (n + 64) * u * V + 256 * (u * S) <= e /\
  0 <= P /\ th * P = u * S * S /\ 0 <= S * th /\ 0 < e.
Proof.
  destruct sizes as (Vp & Sp & VS & US & UV & NUV & UL & SK & KV & KM & SM & TM & N1 & E0 & M1). destruct Hth as ((T1 & T2) & T3).
  assert (0 <= n * (n + 64) * u * V) by (apply Rmult_le_pos; [apply Rmult_le_pos; [apply Rmult_le_pos; lra|lra]|lra]).
  assert (0 < u * S * S) by (apply Rmult_lt_0_compat; lra).
  assert (0 <= P) by (apply Rmult_le_pos; [lra|left; apply Rinv_0_lt_compat; lra]).
  assert (th * P = u * S * S) by (field; lra). assert (0 <= S * th) by (apply Rmult_le_pos; lra). lra.
Qed.

Lemma enter_up x d T tm t1 ts D w : th <= d -> Rabs (x + t1 * d) <= 11 * (u * S) -> t1 <= tm -> 0 <= tm -> tm + 31 / 32 * th <= T ->
  T <= ts <= 4 * S -> D <= x + ts * d <= w - D -> 38 * (u * S) + 100 * P <= D -> 13 * (u * S) <= x + T * d <= w - 13 * (u * S).
Proof.
  intros Hd H1 Ht Ht0 HT Hts HD HP. destruct e_parts as (_ & _ & P0 & PE & _). destruct Hth as ((T1 & T2) & T3).
  destruct sizes as (Vp & Sp & VS & US & _). apply Rabs_le_inv in H1.
  assert (Up : T * d <= ts * d) by (apply Rmult_le_compat_r; lra). split; [|lra].
  assert (T0 : 0 <= T * d) by (apply Rmult_le_pos; lra).
  destruct (Rle_or_lt (13 * (u * S)) x) as [Q|Q]; [lra|].
  assert (Ex : exists t0, 0 <= t0 <= tm /\ - (11 * (u * S)) <= x + t0 * d <= 13 * (u * S)).
  { destruct (Rle_or_lt 0 t1) as [C|C]; [exists t1; lra|exists 0]. assert (0 <= (- t1) * d) by (apply Rmult_le_pos; lra). lra. }
  destruct Ex as (t0 & (B0 & B1) & Lo & Hi).
  assert (G1 : (ts - t0) * d <= 4 * S * d) by (apply Rmult_le_compat_r; lra).
  assert (G2 : 25 * (u * S) + 100 * P <= 4 * S * d) by lra.
  assert (G3 : th * (100 * P) <= th * (4 * S * d)) by (apply Rmult_le_compat_l; lra).
  assert (G4 : 25 * (u * S) <= th * d) by (apply Rmult_le_reg_l with (4 * S); lra).
  assert (G5 : 31 / 32 * th * d <= (T - t0) * d) by (apply Rmult_le_compat_r; lra). lra.
Qed.

Lemma enter_flat x d T ts D w : Rabs d < th -> 0 <= T -> T <= ts <= 4 * S -> D <= x + ts * d <= w - D -> 8 * (S * th) + 38 * (u * S) <= D ->
  13 * (u * S) <= x + T * d <= w - 13 * (u * S) /\ 13 * (u * S) <= x <= w - 13 * (u * S).
Proof.
  intros Hd HT Hts HD HP. destruct sizes as (Vp & Sp & VS & US & _). destruct Hth as ((T1 & T2) & T3).
  assert (B : forall q, 0 <= q <= 4 * S -> Rabs (q * d) <= 4 * (S * th)).
  { intros q Hq. rewrite Rabs_mult, (Rabs_pos_eq q) by lra. replace (4 * (S * th)) with (4 * S * th) by ring. apply Rmult_le_compat; try lra. apply Rabs_pos. }
  pose proof (B ts ltac:(lra)) as B1. pose proof (B (ts - T) ltac:(lra)) as B2.
  assert (Z : 0 <= S * th) by (apply Rmult_le_pos; lra). apply Rabs_le_inv in B1, B2. lra.
Qed.

(** The ray by its direction and by its points. *)
Lemma two_ways a t : 0 <= t <= 1 ->
  Rabs ((val (co a o) + t * La * val (co a dir)) - (val (co a o) + t * (val (co a p) - val (co a o)))) <= 10 * (u * S).
Proof.
  intros Ht. destruct sizes as (Vp & Sp & VS & US & _). destruct len_facts as (L0 & L4 & _ & _ & LN & _).
  destruct (dir_axis a) as (_ & Dd & _). destruct (ray_axis a) as (_ & Dr & _).
  assert (Q1 : Rabs (t * La * (val (co a dir) - val (co a r) / La)) <= 8 * (u * S)).
  { assert (0 <= t * La) by (apply Rmult_le_pos; lra). rewrite Rabs_mult, (Rabs_pos_eq (t * La)) by lra.
    replace (8 * (u * S)) with (4 * S * (2 * u)) by ring. apply Rmult_le_compat; try lra; [apply Rabs_pos|].
    assert (t * La <= 1 * La) by (apply Rmult_le_compat_r; lra). lra. }
  assert (Q2 : Rabs (t * (val (co a r) - (val (co a p) - val (co a o)))) <= 2 * (u * S)).
  { rewrite Rabs_mult, (Rabs_pos_eq t) by lra. rewrite <- (Rmult_1_l (2 * (u * S))). apply Rmult_le_compat; try lra. apply Rabs_pos. }
  replace ((val (co a o) + t * La * val (co a dir)) - (val (co a o) + t * (val (co a p) - val (co a o))))
    with (t * La * (val (co a dir) - val (co a r) / La) + t * (val (co a r) - (val (co a p) - val (co a o)))) by (field; exact LN).
  eapply Rle_trans; [apply Rabs_triang|]. lra.
Qed.

Lemma start_time ps tm T : starts ps tm T -> tm <= 4 * S -> tm + 31 / 32 * th <= T <= tm + 2 * th.
Proof.
  intros ST Q. destruct (st_T _ _ _ ST) as (D & _). destruct (st_tm _ _ _ ST) as (T0 & _). destruct Hfar as (Far1 & Far2).
  destruct sizes as (Vp & Sp & VS & US & UV & NUV & UL & _). destruct Hth as ((T1 & T2) & T3).
  assert (u * tm <= u * (4 * S)) by (apply Rmult_le_compat_l; lra). assert (u * th <= / 129 * th) by (apply Rmult_le_compat_r; lra).
  apply Rabs_le_inv in D. lra.
Qed.

(** How far it is to a place that is inside the grid on the axes that count. *)
Lemma far_enough ps tm T ts : starts ps tm T -> in_grid A g (voxel_of A g o) = false -> 0 <= ts ->
  (forall a, (0 < val (co a dir) -> 16 * th + 38 * (u * S) <= val (co a o) + ts * val (co a dir)) /\
             (val (co a dir) < 0 -> val (co a o) + ts * val (co a dir) <= IZR (cn a) * V - (16 * th + 38 * (u * S)))) ->
  (forall a, val (co a o) <= 8 * (u * S) \/ IZR (cn a) * V - 8 * (u * S) <= val (co a o) -> 8 * th <= ts * Rabs (val (co a dir))) ->
  tm + 4 * th <= ts.
Proof.
  intros ST Go Hts HD HO. destruct sizes as (Vp & Sp & VS & US & _). destruct Hth as ((T1 & T2) & T3).
  destruct (st_src _ _ _ ST) as [->|(a & Hd & E1 & E2 & _)].
  - destruct (not_grid_ci _ Go) as (a & Ha). destruct (Hco a) as (Fo & _ & Bo & _).
    destruct sizes as (_ & _ & _ & _ & _ & _ & _ & SK & KV & _). specialize (HO a (index_out a o Fo ltac:(lra) Ha)).
    destruct (dir_axis a) as (_ & _ & Bd & _). assert (ts * Rabs (val (co a dir)) <= ts * (9 / 8)) by (apply Rmult_le_compat_l; lra). lra.
  - destruct (HD a) as (D1 & D2). destruct (dir_axis a) as (_ & _ & Bd & _). apply Rabs_le_inv in Bd.
    unfold Rabs in Hd. destruct (Rcase_abs (val (co a dir))) as [C|C].
    + specialize (E2 C). specialize (D2 C). apply Rabs_le_inv in E2.
      assert (16 * th <= (ts - tm) * (- val (co a dir))) by lra.
      destruct (Rle_or_lt tm ts) as [Q|Q]; [|assert (0 <= (tm - ts) * (- val (co a dir))) by (apply Rmult_le_pos; lra); lra].
      assert ((ts - tm) * (- val (co a dir)) <= (ts - tm) * 2) by (apply Rmult_le_compat_l; lra). lra.
    + assert (C' : 0 < val (co a dir)) by lra. specialize (E1 C'). specialize (D1 C'). apply Rabs_le_inv in E1.
      assert (16 * th <= (ts - tm) * val (co a dir)) by lra.
      destruct (Rle_or_lt tm ts) as [Q|Q]; [|assert (0 <= (tm - ts) * val (co a dir)) by (apply Rmult_le_pos; lra); lra].
      assert ((ts - tm) * val (co a dir) <= (ts - tm) * 2) by (apply Rmult_le_compat_l; lra). lra.
Qed.

Lemma time_of_part t T : T <= t * La -> T / La <= t.
Proof.
  intros H. destruct len_facts as (L0 & _ & _ & _ & LN & _). apply Rmult_le_reg_r with La; [exact L0|]. unfold Rdiv.
  rewrite Rmult_assoc, Rinv_l by exact LN. lra.
Qed.

Lemma deep_line t : 0 <= t <= 1 ->
  (forall a, e <= val (co a o) + t * (val (co a p) - val (co a o)) <= IZR (cn a) * V - e) ->
  0 <= t * La <= 4 * S /\ exists D, 16 * th + 8 * (S * th) + 100 * P + 246 * (u * S) <= D /\
  forall a, D <= val (co a o) + t * La * val (co a dir) <= IZR (cn a) * V - D.
Proof.
  intros Ht HD. destruct sizes as (Vp & Sp & VS & US & UV & NUV & UL & SK & KV & KM & SM & TM & N1 & E0 & M1).
  destruct e_parts as (E1 & E2 & P0 & PE & ST0 & Ep). destruct len_facts as (L0 & L4 & _ & _ & LN & _).
  split; [split; [apply Rmult_le_pos; lra|]; assert (t * La <= 1 * La) by (apply Rmult_le_compat_r; lra); lra|].
  exists (e - 10 * (u * S)). split; [lra|]. intros a. pose proof (two_ways a t Ht) as W. specialize (HD a). apply Rabs_le_inv in W. lra.
Qed.

Lemma deep_some t : 0 <= t <= 1 -> in_grid A g (voxel_of A g o) = false ->
  (forall a, e <= val (co a o) + t * (val (co a p) - val (co a o)) <= IZR (cn a) * V - e) ->
  start_point A g m o (voxel_of A g o) r <> None.
Proof.
  intros Ht Go HD. destruct sizes as (Vp & Sp & VS & US & _).
  destruct Hth as ((T1 & T2) & T3), e_parts as (E1 & E2 & P0 & PE & ST0 & Ep). destruct (deep_line t Ht HD) as (Hts & D & DB & X).
  destruct (start_round _ Go) as [(_ & a & Hd & Ho)|(ps & tm & T & -> & _)]; [|discriminate]. exfalso.
  destruct (enter_flat (val (co a o)) (val (co a dir)) (t * La) (t * La) D (IZR (cn a) * V) Hd (proj1 Hts) ltac:(lra) (X a) ltac:(lra)) as (_ & Q).
  destruct (Hsz a) as (_ & Hs). apply Rabs_le_inv in Hs. lra.
Qed.

Lemma deep_start t ps tm T : 0 <= t <= 1 -> in_grid A g (voxel_of A g o) = false -> starts ps tm T ->
  (forall a, e <= val (co a o) + t * (val (co a p) - val (co a o)) <= IZR (cn a) * V - e) ->
  in_grid A g (si ps) = true /\ T / La <= t.
Proof.
  intros Ht Go ST HD. destruct sizes as (Vp & Sp & VS & US & UV & NUV & UL & SK & KV & KM & SM & TM & N1 & E0 & M1).
  destruct Hth as ((T1 & T2) & T3), e_parts as (E1 & E2 & P0 & PE & ST0 & Ep), Hfar as (Far1 & Far2).
  destruct (deep_line t Ht HD) as (Hts & D & DB & X).
  set (ts := t * La) in *.
  assert (FE : tm + 4 * th <= ts).
  { apply (far_enough ps tm T ts ST Go (proj1 Hts)).
    - intros a. specialize (X a). split; intros _; lra.
    - intros a Ha. specialize (X a). assert (Q : 8 * th <= Rabs (ts * val (co a dir))).
      { destruct Ha as [Ha|Ha]; [eapply Rle_trans; [|apply Rle_abs]; lra|]. rewrite <- Rabs_Ropp. eapply Rle_trans; [|apply Rle_abs]. lra. }
      rewrite Rabs_mult, (Rabs_pos_eq ts) in Q by lra. exact Q. }
  destruct (st_tm _ _ _ ST) as (M0 & _). assert (TT := start_time ps tm T ST ltac:(lra)).
  split; [|apply time_of_part; fold ts; lra].
  apply grid_ci. intros a. destruct (st_ps _ _ _ ST a) as (F & B & Dp & _). cbv zeta in Dp. destruct (Hco a) as (_ & _ & Bo & _). pose proof (width a) as Wd.
  assert (In : 13 * (u * S) <= val (co a o) + T * val (co a dir) <= IZR (cn a) * V - 13 * (u * S)).
  { specialize (X a). destruct (st_in _ _ _ ST a) as [(Q & _)|(Q & t1 & Ht1 & Q1 & Q2 & _)].
    - apply (enter_flat (val (co a o)) (val (co a dir)) T ts D); try assumption; lra.
    - unfold Rabs in Q. destruct (Rcase_abs (val (co a dir))) as [C|C].
      + assert (R := enter_up (IZR (cn a) * V - val (co a o)) (- val (co a dir)) T tm t1 ts D (IZR (cn a) * V) Q).
        assert (R' : 13 * (u * S) <= IZR (cn a) * V - val (co a o) + T * - val (co a dir) <= IZR (cn a) * V - 13 * (u * S)); [|lra].
        apply R; try assumption; try lra. rewrite <- Rabs_Ropp. specialize (Q2 C).
        replace (- (IZR (cn a) * V - val (co a o) + t1 * - val (co a dir))) with (val (co a o) + t1 * val (co a dir) - IZR (cn a) * V) by ring. exact Q2.
      + assert (C' : 0 < val (co a dir)) by lra. apply (enter_up (val (co a o)) (val (co a dir)) T tm t1 ts D); try assumption; try lra; exact (Q1 C'). }
  set (X0 := val (co a o) + T * val (co a dir)) in *.
  assert (A1 : Rabs (T * val (co a dir)) <= 2 * S).
  { replace (T * val (co a dir)) with (X0 - val (co a o)) by (unfold X0; ring). apply Rabs_le_inv in Bo. apply Rabs_le. lra. }
  assert (A2 : u * Rabs (T * val (co a dir)) <= u * (2 * S)) by (apply Rmult_le_compat_l; lra).
  assert (A3 : u * Rabs X0 <= u * S) by (apply Rmult_le_compat_l; [lra|apply Rabs_le; lra]).
  assert (A4 : Rabs (val (co a ps) - X0) <= 4 * (u * S)) by lra. apply Rabs_le_inv in A4.
  destruct (Z_lt_dec (ci a (si ps)) 0) as [Q|Q]; [exfalso|destruct (Z_le_dec (cn a) (ci a (si ps))) as [Q'|Q']; [exfalso|clear - Q Q'; lia]].
  - pose proof (index_far a ps F B) as I. destruct (I 0%Z ltac:(zl)) as (_ & I1). specialize (I1 Q). lra.
  - pose proof (index_far a ps F B) as I. destruct (Hn a) as (na1 & na2). destruct (I (cn a) ltac:(zl)) as (I1 & _). specialize (I1 Q'). lra.
Qed.

(** A segment that reaches the grid is long enough for the start of the walk. *)
Lemma reach_start ps tm T : starts ps tm T -> in_grid A g (voxel_of A g o) = false ->
  (forall a, reaches_axis e (IZR (cn a) * V) (val (co a o)) (val (co a o) + s * (val (co a p) - val (co a o)))) ->
  T / La <= s.
Proof.
  intros ST Go HR. destruct sizes as (Vp & Sp & VS & US & UV & NUV & UL & SK & KV & KM & SM & TM & N1 & E0 & M1).
  destruct Hth as ((T1 & T2) & T3), e_parts as (E1 & E2 & P0 & PE & ST0 & Ep). destruct len_facts as (L0 & L4 & _ & _ & LN & _).
  pose proof part_range as Hs.
  assert (Hts : 0 <= s * La <= 4 * S).
  { split; [apply Rmult_le_pos; lra|]. assert (s * La <= 1 * La) by (apply Rmult_le_compat_r; lra). lra. }
  assert (FE : tm + 4 * th <= s * La).
  { apply (far_enough ps tm T (s * La) ST Go (proj1 Hts)).
    - intros a. pose proof (two_ways a s Hs) as W. apply Rabs_le_inv in W. destruct (HR a) as (R1 & R2). split; intros C.
      + assert (0 <= s * La * val (co a dir)) by (apply Rmult_le_pos; lra). lra.
      + assert (0 <= s * La * - val (co a dir)) by (apply Rmult_le_pos; lra). lra.
    - intros a Ha. pose proof (two_ways a s Hs) as W. apply Rabs_le_inv in W. destruct (HR a) as (R1 & R2).
      assert (Q : 8 * th <= Rabs (s * La * val (co a dir))).
      { unfold Rabs. destruct (Rcase_abs (s * La * val (co a dir))); destruct Ha as [Ha|Ha]; lra. }
      rewrite Rabs_mult, (Rabs_pos_eq (s * La)) in Q by lra. exact Q. }
  destruct (st_tm _ _ _ ST) as (M0 & _). assert (TT := start_time ps tm T ST ltac:(lra)). apply time_of_part. lra.
Qed.

(** ** The marks *)

Definition pc (a : axis) (q : pt) : R := match a with AX => px q | AY => py q | AZ => pz q end.
Notation q := (along (reals A val o) (reals A val p)).

Lemma near_axes (d : R) (i : idx) (c : pt) : near_voxel V d i c <-> forall a, IZR (ci a i) * V - d <= pc a c <= (IZR (ci a i) + 1) * V + d.
Proof.
  split; [intros (A1 & A2 & A3) []; assumption|]. intros H. exact (conj (H AX) (conj (H AY) (H AZ))).
Qed.

Lemma deep_axes (d : R) (i : idx) (c : pt) : deep_in_voxel V d i c <-> forall a, IZR (ci a i) * V + d < pc a c < (IZR (ci a i) + 1) * V - d.
Proof.
  split; [intros (A1 & A2 & A3) []; assumption|]. intros H. exact (conj (H AX) (conj (H AY) (H AZ))).
Qed.

Lemma pc_along a t : pc a (q t) = val (co a o) + t * (val (co a p) - val (co a o)).
Proof. destruct a; reflexivity. Qed.

Lemma pc_end a : pc a (reals A val p) = val (co a p).
Proof. destruct a; reflexivity. Qed.

Lemma deep_inside i t : in_grid A g i = true -> deep_in_voxel V e i (q t) ->
  forall a, e <= val (co a o) + t * (val (co a p) - val (co a o)) <= IZR (cn a) * V - e.
Proof.
  intros Gi D a. pose proof (proj1 (deep_axes e i (q t)) D a) as Da. rewrite pc_along in Da. pose proof (proj1 (grid_ci i) Gi a) as Ga.
  destruct HV as (_ & Vp). assert (0 <= IZR (ci a i) * V) by (apply Rmult_le_pos; [apply IZR_le; clear - Ga; lia|lra]).
  assert ((IZR (ci a i) + 1) * V <= IZR (cn a) * V) by (apply Rmult_le_compat_r; [lra|]; rewrite <- plus_IZR; apply IZR_le; clear - Ga; lia). lra.
Qed.

Lemma walk_outside fuel step cur tx ty tz path : in_grid A g cur = false -> walk A g fuel r step fi cur tx ty tz = Some path -> path = [].
Proof.
  destruct fuel; [discriminate|]. cbn [walk]. intros -> H. destruct (idx_eqb cur fi); injection H as <-; reflexivity.
Qed.

Lemma end_near_far : in_grid A g fi = true -> near_voxel V e fi (q s).
Proof.
  intros G. apply near_axes. intros a. rewrite pc_along. pose proof (proj1 (grid_ci _) G a) as Ga. destruct (end_on_ray a) as (F & B & D & _).
  pose proof (index_far a _ F B) as I. destruct (Hn a) as (_ & na2). pose proof part_range as Hs. destruct (ray_axis a) as (_ & Dr & _).
  destruct sizes as (Vp & Sp & VS & US & UV & NUV & _). destruct e_parts as (_ & E2 & _). destruct (I (ci a fi) ltac:(zl)) as (I1 & _). specialize (I1 (Z.le_refl _)).
  destruct (I (ci a fi + 1)%Z ltac:(zl)) as (_ & I2). specialize (I2 ltac:(zl)). rewrite plus_IZR in I2.
  assert (Q : Rabs (s * (val (co a r) - (val (co a p) - val (co a o)))) <= 2 * (u * S)).
  { rewrite Rabs_mult, (Rabs_pos_eq s) by lra. rewrite <- (Rmult_1_l (2 * (u * S))). apply Rmult_le_compat; try lra. apply Rabs_pos. }
  assert (0 <= n * (n + 64) * u * V).
  { pose proof (n_ge1 N HN). apply Rmult_le_pos; [|lra]. apply Rmult_le_pos; [|lra]. apply Rmult_le_pos; lra. }
  apply Rabs_le_inv in Q, D. lra.
Qed.

Lemma end_index a i : is_clipped A m r = false -> (0 <= i < cn a)%Z -> IZR i * V + e < val (co a p) < (IZR i + 1) * V - e -> ci a fi = i.
Proof.
  intros C Hi D. destruct (end_on_ray a) as (F & B & _). pose proof (index_far a _ F B) as I.
  assert (Ef : final_point A m o p = p) by (unfold final_point; now rewrite C). rewrite Ef in I |- *.
  destruct (Hn a) as (_ & na2). destruct sizes as (Vp & Sp & VS & US & UV & NUV & _). destruct e_parts as (E1 & _ & P0 & _ & ST0 & _). destruct Hth as ((T1 & T2) & _).
  destruct (Ztrichotomy (ci a (voxel_of A g p)) i) as [Q|[Q|Q]]; [exfalso|exact Q|exfalso].
  - destruct (I i ltac:(zl)) as (_ & I1). specialize (I1 Q). lra.
  - destruct (I (i + 1)%Z ltac:(zl)) as (I1 & _). specialize (I1 ltac:(clear - Q; lia)). rewrite plus_IZR in I1. lra.
Qed.

Lemma end_inside a : is_clipped A m r = false -> e <= val (co a p) <= IZR (cn a) * V - e -> (0 <= ci a fi < cn a)%Z.
Proof.
  intros C D. destruct (end_on_ray a) as (F & B & _). pose proof (index_far a _ F B) as I.
  assert (Ef : final_point A m o p = p) by (unfold final_point; now rewrite C). rewrite Ef in I |- *.
  destruct (Hn a) as (na1 & na2). destruct sizes as (Vp & Sp & VS & US & UV & NUV & _). destruct e_parts as (E1 & _ & P0 & _ & ST0 & _). destruct Hth as ((T1 & T2) & _).
  destruct (Z_lt_dec (ci a (voxel_of A g p)) 0) as [Q|Q]; [exfalso|destruct (Z_le_dec (cn a) (ci a (voxel_of A g p))) as [Q'|Q']; [exfalso|clear - Q Q'; lia]].
  - destruct (I 0%Z ltac:(zl)) as (_ & I1). specialize (I1 Q). lra.
  - destruct (I (cn a) ltac:(zl)) as (I1 & _). specialize (I1 Q'). lra.
Qed.

Theorem far_cast bs : in_grid A g (voxel_of A g o) = false -> cast_point A g m o (voxel_of A g o) p = Some bs ->
  (forall i b, In (i, b) bs -> in_grid A g i = true) /\
  (forall i, In (i, true) bs -> is_clipped A m r = false /\ near_voxel V e i (reals A val p)) /\
  (forall t i, 0 <= t <= s -> in_grid A g i = true -> deep_in_voxel V e i (q t) -> exists b, In (i, b) bs) /\
  (forall i, is_clipped A m r = false -> in_grid A g i = true -> deep_in_voxel V e i (reals A val p) -> In (i, true) bs) /\
  (is_clipped A m r = false -> inside V e (rg_nx A g) (rg_ny A g) (rg_nz A g) (reals A val p) -> exists i, In (i, true) bs) /\
  (reaches V e (rg_nx A g) (rg_ny A g) (rg_nz A g) (reals A val o) (q s) ->
   forall i b, In (i, b) bs -> exists t, 0 <= t <= s /\ near_voxel V e i (q t)) /\
  ((forall t i, 0 <= t -> in_grid A g i = true -> ~ near_voxel V (e * (1 + t)) i (q t)) -> bs = []).
Proof.
  intros Go Hc. pose proof part_range as Hs. destruct sizes as (Vp & Sp & VS & US & UV & NUV & _). destruct e_parts as (E1 & E2 & P0 & PE & ST0 & Ep).
  destruct len_facts as (L0 & _ & _ & _ & LN & _).
  assert (Q1 : q 1 = reals A val p).
  { unfold along, reals, px, py, pz. cbn [fst snd]. f_equal; [f_equal|]; ring. }
  assert (S1 : is_clipped A m r = false -> s = 1) by (intros C; unfold ray_part; now rewrite C).
  unfold cast_point in Hc. destruct (start_round _ Go) as [(Es & _)|(ps & tm & T & Es & ST)]; rewrite Es in Hc.
  - injection Hc as <-.
    assert (No : forall t, 0 <= t <= 1 -> (forall a, e <= val (co a o) + t * (val (co a p) - val (co a o)) <= IZR (cn a) * V - e) -> False).
    { intros t Ht D. exact (deep_some t Ht Go D Es). }
    split; [easy|]. split; [easy|]. split; [|split; [|split; [|split; [easy|reflexivity]]]].
    + intros t i Ht Gi D. destruct (No t ltac:(lra) (deep_inside i t Gi D)).
    + intros i _ Gi D. rewrite <- Q1 in D. destruct (No 1 ltac:(lra) (deep_inside i 1 Gi D)).
    + intros _ (I1 & I2 & I3). exfalso. apply (No 1); [lra|]. intros a.
      replace (val (co a o) + 1 * (val (co a p) - val (co a o))) with (val (co a p)) by ring. destruct a; assumption.
  - destruct (walk_props A g r (si ps) fi (walk_fuel (si ps) fi) (si ps)
      (first_t A g (vx A ps) (vx A r) (ix (si ps))) (first_t A g (vy A ps) (vy A r) (iy (si ps)))
      (first_t A g (vz A ps) (vz A r) (iz (si ps)))) as (path & Ew & _ & _ & Hin & _).
    { clear. unfold in_index_box. lia. }
    { clear. unfold walk_fuel, manhattan. lia. }
    rewrite Ew in Hc. cbn [obind] in Hc. injection Hc as Hbs.
    (* what the walk does if it begins before the end of the segment *)
    assert (Wk : in_grid A g (si ps) = true -> T / La <= s ->
      (forall j, In j path -> exists t, 0 <= t <= s /\ near_voxel V e j (q t)) /\
      (forall t j, T / La <= t <= s -> in_grid A g j = true -> deep_in_voxel V e j (q t) -> In j path \/ j = fi)).
    { intros Gs Ht. destruct (start_on_ray ps tm T ST Gs) as ((T0 & _) & _).
      assert (Tp : 0 <= T / La) by (apply Rmult_le_pos; [lra|left; now apply Rinv_0_lt_compat]).
      destruct (far_axis ps tm T AX ST Gs Ht) as (r1 & AL1 & C1). destruct (far_axis ps tm T AY ST Gs Ht) as (r2 & AL2 & C2).
      destruct (far_axis ps tm T AZ ST Gs Ht) as (r3 & AL3 & C3). set (rho := (r1, r2, r3) : pt).
      assert (D0 : 0 <= 64 * (u * S)) by lra.
      destruct (walk_round_init A fin val u eta M L K lam RR g N HV Hinv HN Hu Hsmall Heta HK HM _ D0 ps r rho (si ps) fi (s - T / La) AL1 AL2 AL3 _ path Ew)
        as (W1 & W2).
      assert (Cv : forall a t, T / La <= t <= s -> Rabs (pc a (q t) - pc a (line A val ps rho (t - T / La))) <= 64 * (u * S)).
      { intros [] t Q; rewrite pc_along; [exact (C1 t Q)|exact (C2 t Q)|exact (C3 t Q)]. }
      split.
      - intros j Hj. destruct (Hin j Hj) as (Gj & Bj & _).
        destruct (near_segment A fin val u L lam g N HV Hinv HN Hu Hsmall _ ps r rho (si ps) fi (s - T / La) AL1 AL2 AL3 j Gj Bj (W1 j Hj)) as (t & Tt & Nt).
        exists (t + T / La). split; [lra|]. apply near_axes. intros a. pose proof (proj1 (near_axes _ _ _) Nt a) as Na.
        pose proof (Cv a (t + T / La) ltac:(lra)) as Ca. replace (t + T / La - T / La) with t in Ca by ring. apply Rabs_le_inv in Ca. lra.
      - intros t j Tt Gj D. apply (W2 (t - T / La) j ltac:(lra) Gj). apply deep_axes. intros a.
        pose proof (proj1 (deep_axes _ _ _) D a) as Da. pose proof (Cv a t Tt) as Ca. apply Rabs_le_inv in Ca. lra. }
    assert (Deep : forall t, 0 <= t <= s -> (forall a, e <= val (co a o) + t * (val (co a p) - val (co a o)) <= IZR (cn a) * V - e) ->
      in_grid A g (si ps) = true /\ T / La <= t) by (intros t Ht D; apply (deep_start t ps tm T); try assumption; lra).
    assert (Pg : forall j, In j path -> in_grid A g (si ps) = true).
    { intros j Hj. destruct (in_grid A g (si ps)) eqn:Gs; [reflexivity|]. rewrite (walk_outside _ _ _ _ _ _ _ Gs Ew) in Hj. destruct Hj. }
    subst bs. split; [|split; [|split; [|split; [|split; [|split]]]]].
    + intros i b Hi. apply in_app_or in Hi. destruct Hi as [Hi|Hi].
      * destruct (in_grid A g fi) eqn:Gf; [|easy]. destruct Hi as [Hi|[]]. injection Hi as <- _. exact Gf.
      * apply in_map_iff in Hi. destruct Hi as (j & Ej & Hj). injection Ej as <- _. apply (Hin j Hj).
    + intros i Hi. apply in_app_or in Hi. destruct Hi as [Hi|Hi].
      * destruct (in_grid A g fi) eqn:Gf; [|easy]. destruct Hi as [Hi|[]]. injection Hi as <- Hb. apply negb_true_iff in Hb.
        split; [exact Hb|]. rewrite <- Q1, <- (S1 Hb). now apply end_near_far.
      * apply in_map_iff in Hi. destruct Hi as (j & Ej & _). easy.
    + intros t i Ht Gi D. destruct (Deep t Ht (deep_inside i t Gi D)) as (Gs & Tt).
      destruct (Wk Gs ltac:(lra)) as (_ & W2). destruct (W2 t i ltac:(lra) Gi D) as [Hi| ->].
      * exists false. apply in_or_app. right. apply in_map_iff. now exists i.
      * eexists. apply in_or_app. left. rewrite Gi. left. reflexivity.
    + intros i Hb Gi D. assert (Ei : i = fi).
      { assert (Ea : forall a, ci a fi = ci a i).
        { intros a. apply end_index; [exact Hb|exact (proj1 (grid_ci i) Gi a)|]. pose proof (proj1 (deep_axes _ _ _) D a) as Da. rewrite pc_end in Da. exact Da. }
        pose proof (Ea AX) as X1. pose proof (Ea AY) as X2. pose proof (Ea AZ) as X3. cbn [ci] in X1, X2, X3. apply idx_ext; symmetry; assumption. }
      rewrite Ei in Gi |- *. apply in_or_app. left. rewrite Gi, Hb. left. reflexivity.
    + intros Hb (I1 & I2 & I3). assert (Gf : in_grid A g fi = true).
      { apply grid_ci. intros a. apply end_inside; [exact Hb|]. destruct a; assumption. }
      exists fi. apply in_or_app. left. rewrite Gf, Hb. left. reflexivity.
    + intros Rs i b Hi. apply in_app_or in Hi. destruct Hi as [Hi|Hi].
      * destruct (in_grid A g fi) eqn:Gf; [|easy]. destruct Hi as [Hi|[]]. injection Hi as <- _. exists s. split; [lra|now apply end_near_far].
      * apply in_map_iff in Hi. destruct Hi as (j & Ej & Hj). injection Ej as <- _.
        assert (Rt : T / La <= s).
        { apply (reach_start ps tm T ST Go). intros a. destruct Rs as (R1 & R2 & R3). destruct a; assumption. }
        exact (proj1 (Wk (Pg j Hj) Rt) j Hj).
    + intros Miss. assert (Gf : in_grid A g fi = false).
      { destruct (in_grid A g fi) eqn:Gf; [exfalso|reflexivity]. apply (Miss s fi (proj1 Hs) Gf). apply near_axes. intros a.
        pose proof (proj1 (near_axes _ _ _) (end_near_far Gf) a) as Na. assert (0 <= e * s) by (apply Rmult_le_pos; lra). lra. }
      rewrite Gf. assert (Gs : in_grid A g (si ps) = false).
      { destruct (in_grid A g (si ps)) eqn:Gs; [exfalso|reflexivity]. destruct (start_on_ray ps tm T ST Gs) as ((T0 & _) & Dps).
        assert (Tp : 0 <= T / La) by (apply Rmult_le_pos; [lra|left; now apply Rinv_0_lt_compat]).
        apply (Miss (T / La) (si ps) Tp Gs). apply near_axes. intros a. rewrite pc_along. specialize (Dps a).
        destruct (st_ps _ _ _ ST a) as (F & B & _). pose proof (index_far a ps F B) as I. pose proof (proj1 (grid_ci _) Gs a) as Ga. destruct (Hn a) as (_ & na2).
        destruct (I (ci a (si ps)) ltac:(zl)) as (I1 & _). specialize (I1 (Z.le_refl _)).
        destruct (I (ci a (si ps) + 1)%Z ltac:(zl)) as (_ & I2). specialize (I2 ltac:(zl)). rewrite plus_IZR in I2.
        destruct (ray_axis a) as (_ & Dr & _). set (tau := T / La) in *.
        assert (Q : Rabs (tau * (val (co a r) - (val (co a p) - val (co a o)))) <= tau * (2 * (u * S))).
        { rewrite Rabs_mult, (Rabs_pos_eq tau) by lra. apply Rmult_le_compat_l; lra. }
        destruct Hth as ((T1 & T2) & _).
        assert (Q3 : tau * (2 * (u * S)) <= tau * e) by (apply Rmult_le_compat_l; lra).
        apply Rabs_le_inv in Q, Dps. clear - Q Q3 Dps I1 I2 NUV E1 P0 ST0 US T1. lra. }
      rewrite (walk_outside _ _ _ _ _ _ _ Gs Ew). reflexivity.
Qed.
End Ray.
End Far.
