(** Rays computed with rounding: every quantity of the walk is close to the exact one. *)
From Coq Require Import ZArith Reals List Bool Lia Lra Psatz ZifyBool.
From Flocq Require Import Core.
From Verif Require Import Util Grid RaycastModel RaycastSpec RaycastProofs RayGeoSpec RayRoundSpec.
Import ListNotations.
Local Open Scope R_scope.

Section Rounded.
Variables (A : ray_arith) (fin : rT A -> bool) (val : rT A -> R) (u eta M L K lam : R).
Hypothesis RR : rounded_ray A fin val u eta M L.
Variables (g : ray_grid A) (N : Z).
Notation V := (val (rg_voxel A g)).
Notation inv := (val (rg_inv A g)).
Notation n := (IZR N).
Hypothesis HV : fin (rg_voxel A g) = true /\ 0 < V.
Hypothesis Hinv : fin (rg_inv A g) = true /\ Rabs (inv * V - 1) <= 4 * u.
Hypothesis HN : (1 <= N)%Z.
Hypothesis Hu : 0 < u.
Hypothesis Hsmall : n * (n + 128) * u <= 1.
Hypothesis Heta : 0 <= eta /\ eta <= u /\ eta <= u * V /\ eta * L <= u.
Hypothesis HK : 1 <= K /\ 16 * K <= L /\ n <= K.
Hypothesis HM : L <= M /\ L * V <= M /\ 8 * n <= lam * M /\ 0 < lam.

Lemma n_ge1 : 1 <= n.
Proof. apply IZR_le. exact HN. Qed.

Lemma nu_small : n * u <= / 129 /\ u <= / 129 /\ 0 < n * u.
Proof.
  pose proof n_ge1 as H1. assert (0 < n * u) by (apply Rmult_lt_0_compat; lra).
  assert (n * u * 129 <= 1).
  { apply Rle_trans with (2 := Hsmall). replace (n * (n + 128) * u) with (n * u * (n + 128)) by ring.
    apply Rmult_le_compat_l; lra. }
  assert (1 * u <= n * u) by (apply Rmult_le_compat_r; lra). lra.
Qed.

(** ** Indices *)

(** The index [i] of the location [x] is right up to [e] for the boundaries of the grid. *)
Definition index_ok (e x : R) (i : Z) : Prop :=
  forall k, (0 <= k <= N)%Z -> ((k <= i)%Z -> IZR k * V - e <= x) /\ ((i < k)%Z -> x <= IZR k * V + e).

Lemma index_near x : fin x = true -> Rabs (val x) <= 4 * K * V ->
  index_ok (8 * n * u * V) (val x) (r_floor A (r_mul A x (rg_inv A g))).
Proof.
  intros Fx Hx. destruct HV as (FV & Vp), Hinv as (FI & HI), HK as (K1 & K2 & K3), HM as (M1 & M2 & _), Heta as (E0 & E1 & E2 & E3).
  destruct nu_small as (NU & US & NP). pose proof n_ge1 as N1.
  set (y := val x / V). assert (Ex : val x = y * V) by (unfold y; field; lra).
  assert (Hy : Rabs y <= 4 * K).
  { unfold y, Rdiv. rewrite Rabs_mult, (Rabs_pos_eq (/ V)) by (left; now apply Rinv_0_lt_compat).
    apply Rmult_le_reg_r with V; [exact Vp|]. rewrite Rmult_assoc, Rinv_l, Rmult_1_r by lra. exact Hx. }
  set (d := inv * V - 1) in *. assert (Exi : val x * inv = y * (1 + d)) by (rewrite Ex; unfold d; ring).
  assert (Ay : 0 <= Rabs y) by apply Rabs_pos.
  assert (D1 : Rabs (y * d) <= 4 * u * Rabs y).
  { rewrite Rabs_mult, Rmult_comm. apply Rmult_le_compat_r; [exact Ay|exact HI]. }
  assert (D2 : Rabs (val x * inv) <= 2 * Rabs y).
  { rewrite Exi, Rabs_mult. rewrite Rmult_comm. apply Rmult_le_compat_r; [exact Ay|].
    apply Rabs_le_inv in HI. apply Rabs_le. lra. }
  destruct (rr_mul _ _ _ _ _ _ _ RR x (rg_inv A g) Fx FI) as (Fw & Dw & _); [lra|].
  set (w := r_mul A x (rg_inv A g)) in *.
  assert (D3 : u * Rabs (val x * inv) <= 2 * u * Rabs y).
  { replace (2 * u * Rabs y) with (u * (2 * Rabs y)) by ring. apply Rmult_le_compat_l; lra. }
  assert (DW : Rabs (val w - y) <= 6 * u * Rabs y + eta).
  { replace (val w - y) with ((val w - val x * inv) + y * d) by (rewrite Exi; ring).
    eapply Rle_trans; [apply Rabs_triang|]. lra. }
  assert (UY : 6 * u * Rabs y <= / 2 * Rabs y) by (apply Rmult_le_compat_r; lra).
  rewrite (rr_floor _ _ _ _ _ _ _ RR w Fw).
  2:{ apply Rabs_le_inv in DW. apply Rabs_le. unfold Rabs in *. destruct (Rcase_abs y); lra. }
  pose proof (Zfloor_lb (val w)) as Fl. pose proof (Zfloor_ub (val w)) as Fu.
  set (i := Zfloor (val w)) in *. clearbody i w d.
  intros k Hk. assert (Hk' : 0 <= IZR k <= n) by (split; apply IZR_le; lia).
  assert (UV : 0 < u * V) by (apply Rmult_lt_0_compat; lra).
  assert (UN : u <= n * u) by (rewrite <- (Rmult_1_l u) at 1; apply Rmult_le_compat_r; lra).
  rewrite Ex. apply Rabs_le_inv in DW.
  split; intros Hi.
  - assert (Kw : IZR k <= val w) by (apply IZR_le in Hi; lra).
    replace (IZR k * V - 8 * n * u * V) with ((IZR k - 8 * n * u) * V) by ring. apply Rmult_le_compat_r; [lra|].
    unfold Rabs in *. destruct (Rcase_abs y) as [Yn|Yp].
    + assert (Y2 : - y <= 2 * eta + 0) by lra. lra.
    + destruct (Rle_or_lt (IZR k) y) as [Q|Q]; [lra|].
      assert (6 * u * y <= 6 * u * n) by (apply Rmult_le_compat_l; lra). lra.
  - assert (Kw : val w <= IZR k) by (apply Zlt_le_succ, IZR_le in Hi; rewrite succ_IZR in Hi; lra).
    replace (IZR k * V + 8 * n * u * V) with ((IZR k + 8 * n * u) * V) by ring. apply Rmult_le_compat_r; [lra|].
    destruct (Rle_or_lt y (IZR k)) as [Q|Q]; [lra|]. unfold Rabs in *. destruct (Rcase_abs y) as [Yn|Yp]; [lra|].
    assert (Y2 : y <= 2 * IZR k + 2 * eta) by lra.
    assert (Y3 : y <= IZR k + 6 * u * y + eta) by lra.
    assert (6 * u * y <= 6 * u * (IZR k + 6 * u * y + eta)) by (apply Rmult_le_compat_l; lra).
    assert (6 * u * (6 * u * y) <= 6 * u * (/ 8)).
    { apply Rmult_le_compat_l; [lra|]. apply Rle_trans with (6 * u * (2 * IZR k + 2 * eta)); [apply Rmult_le_compat_l; lra|].
      assert (u * IZR k <= u * n) by (apply Rmult_le_compat_l; lra).
      assert (u * eta <= u * / 129) by (apply Rmult_le_compat_l; lra). lra. }
    assert (u * IZR k <= u * n) by (apply Rmult_le_compat_l; lra).
    assert (u * eta <= u * / 129) by (apply Rmult_le_compat_l; lra).
    lra.
Qed.

(** The index of a location close to another one. *)
Lemma index_shift y x i : index_ok (8 * n * u * V) y i -> Rabs (y - x) <= 4 * u * (Rabs x + (n + 1) * V) ->
  index_ok (24 * n * u * V) x i.
Proof.
  intros Hy D k Hk. destruct (Hy k Hk) as (H1 & H2). destruct HV as (_ & Vp). destruct nu_small as (NU & US & NP).
  pose proof n_ge1 as N1. assert (Hk' : 0 <= IZR k <= n) by (split; apply IZR_le; lia).
  assert (UV : 0 < u * V) by (apply Rmult_lt_0_compat; lra).
  assert (NUV : u * V <= n * u * V) by (rewrite <- (Rmult_1_l u) at 1; apply Rmult_le_compat_r; [lra|apply Rmult_le_compat_r; lra]).
  assert (KV : IZR k * V <= n * V) by (apply Rmult_le_compat_r; lra). assert (KV0 : 0 <= IZR k * V) by (apply Rmult_le_pos; lra).
  assert (UKV : u * (IZR k * V) <= u * (n * V)) by (apply Rmult_le_compat_l; lra).
  assert (UX : 0 <= u * Rabs x) by (apply Rmult_le_pos; [lra|apply Rabs_pos]).
  assert (UXs : u * Rabs x <= / 129 * Rabs x) by (apply Rmult_le_compat_r; [apply Rabs_pos|lra]).
  assert (UUV : u * (n * u * V) <= / 129 * (n * u * V)) by (apply Rmult_le_compat_r; [apply Rmult_le_pos; lra|lra]).
  apply Rabs_le_inv in D. split; intros Hi.
  - specialize (H1 Hi). unfold Rabs in *. destruct (Rcase_abs x) as [Xn|Xp].
    + lra.
    + destruct (Rle_or_lt (IZR k * V) x) as [Q|Q]; [lra|].
      assert (u * x <= u * (n * V)) by (apply Rmult_le_compat_l; lra). lra.
  - specialize (H2 Hi). destruct (Rle_or_lt x (IZR k * V)) as [Q|Q]; [lra|].
    unfold Rabs in *. destruct (Rcase_abs x) as [Xn|Xp]; [lra|].
    assert (X1 : x <= IZR k * V + 8 * n * u * V + 4 * u * (x + (n + 1) * V)) by lra.
    assert (NUV2 : n * u * V <= / 129 * V) by (apply Rmult_le_compat_r; lra).
    assert (X2 : x <= 5 / 4 * (n * V) + / 2 * V) by lra.
    assert (u * x <= u * (5 / 4 * (n * V) + / 2 * V)) by (apply Rmult_le_compat_l; lra). lra.
Qed.

(** ** Crossing times *)

Definition drift (k : R) : R := (40 * n + k * (n + 6)) * u * V.

Lemma drift_bound k : 0 <= k <= n -> 0 <= drift k <= n * (n + 64) * u * V.
Proof.
  destruct HV as (_ & Vp). pose proof n_ge1 as N1. intros Hk. unfold drift. assert (UV : 0 < u * V) by (apply Rmult_lt_0_compat; lra).
  rewrite !(Rmult_assoc _ u V). split.
  - apply Rmult_le_pos; [|lra]. assert (0 <= k * (n + 6)) by (apply Rmult_le_pos; lra). lra.
  - apply Rmult_le_compat_r; [lra|]. assert (k * (n + 6) <= n * (n + 6)) by (apply Rmult_le_compat_r; lra). lra.
Qed.

(** [t] is the time at which [o + t * r] reaches [b], up to [e]. *)
Definition crosses (e o r b : R) (t : rT A) : Prop :=
  fin t = true /\ 0 <= val t /\ Rabs (o + val t * r - b) <= e.

Lemma corners i : (0 <= i < N)%Z ->
  let half := r_mul A (rg_voxel A g) (r_half A) in
  let c := r_mul A (rg_voxel A g) (r_add A (r_ofZ A i) (r_half A)) in
  fin (r_sub A c half) = true /\ Rabs (val (r_sub A c half) - IZR i * V) <= 12 * n * u * V /\
  fin (r_add A c half) = true /\ Rabs (val (r_add A c half) - (IZR i + 1) * V) <= 12 * n * u * V.
Proof.
  intros Hi half c. destruct HV as (FV & Vp), HK as (K1 & K2 & K3), HM as (M1 & M2 & _), Heta as (E0 & E1 & E2 & E3).
  destruct nu_small as (NU & US & NP). pose proof n_ge1 as N1.
  assert (Hi' : 0 <= IZR i /\ IZR i + 1 <= n) by (split; [apply IZR_le; lia|rewrite <- plus_IZR; apply IZR_le; lia]).
  assert (UV : 0 < u * V) by (apply Rmult_lt_0_compat; lra).
  assert (NUV : u * V <= n * u * V) by (rewrite <- (Rmult_1_l u) at 1; apply Rmult_le_compat_r; [lra|apply Rmult_le_compat_r; lra]).
  assert (NV : V <= n * V) by (rewrite <- (Rmult_1_l V) at 1; apply Rmult_le_compat_r; lra).
  assert (NVM : 4 * (n * V) <= M).
  { apply Rle_trans with (2 := M2). rewrite <- Rmult_assoc. apply Rmult_le_compat_r; lra. }
  destruct (rr_half _ _ _ _ _ _ _ RR) as (Fh & Eh).
  destruct (rr_ofZ _ _ _ _ _ _ _ RR i) as (Fi & Di); [rewrite Z.abs_eq by lia; lra|].
  rewrite (Rabs_pos_eq (IZR i)) in Di by lra.
  assert (UI : u * IZR i <= n * u) by (rewrite (Rmult_comm n); apply Rmult_le_compat_l; lra).
  set (ci := r_ofZ A i) in *. apply Rabs_le_inv in Di.
  assert (UI0 : 0 <= u * IZR i) by (apply Rmult_le_pos; lra).
  destruct (rr_add _ _ _ _ _ _ _ RR ci (r_half A) Fi Fh) as (Fs & Ds & _); [rewrite Eh; apply Rabs_le; lra|].
  rewrite Eh in Ds. set (s := r_add A ci (r_half A)) in *.
  assert (US1 : u * Rabs (val ci + / 2) <= 2 * (n * u)).
  { replace (2 * (n * u)) with (u * (2 * n)) by ring. apply Rmult_le_compat_l; [lra|]. apply Rabs_le. lra. }
  apply Rabs_le_inv in Ds.
  assert (S1 : Rabs (val s - (IZR i + / 2)) <= 3 * (n * u)) by (apply Rabs_le; lra).
  assert (SV : Rabs (V * val s - V * (IZR i + / 2)) <= 3 * n * u * V).
  { replace (V * val s - V * (IZR i + / 2)) with (V * (val s - (IZR i + / 2))) by ring.
    rewrite Rabs_mult, Rabs_pos_eq by lra. rewrite Rmult_comm. replace (3 * n * u * V) with (3 * (n * u) * V) by ring.
    apply Rmult_le_compat_r; lra. }
  apply Rabs_le_inv in SV.
  assert (IV : 0 <= IZR i * V <= n * V - V).
  { split; [apply Rmult_le_pos; lra|]. replace (n * V - V) with ((n - 1) * V) by ring. apply Rmult_le_compat_r; lra. }
  assert (NUV2 : n * u * V <= / 129 * V) by (apply Rmult_le_compat_r; lra).
  assert (VS : Rabs (V * val s) <= 2 * (n * V)) by (apply Rabs_le; lra).
  destruct (rr_mul _ _ _ _ _ _ _ RR (rg_voxel A g) s FV Fs) as (Fc & Dc & _); [lra|]. fold c in Fc, Dc.
  assert (UVS : u * Rabs (V * val s) <= 2 * (n * u * V)).
  { replace (2 * (n * u * V)) with (u * (2 * (n * V))) by ring. apply Rmult_le_compat_l; lra. }
  apply Rabs_le_inv in Dc.
  destruct (rr_mul _ _ _ _ _ _ _ RR (rg_voxel A g) (r_half A) FV Fh) as (Fm & Dm & _); [rewrite Eh; rewrite Rabs_pos_eq; lra|].
  fold half in Fm, Dm. rewrite Eh in Dm. rewrite (Rabs_pos_eq (V * / 2)) in Dm by lra. apply Rabs_le_inv in Dm.
  set (vc := val c) in *. set (vh := val half) in *.
  assert (C1 : Rabs (vc - (IZR i + / 2) * V) <= 6 * (n * u * V)) by (apply Rabs_le; lra). apply Rabs_le_inv in C1.
  assert (H1 : Rabs (vh - V * / 2) <= 2 * (u * V)) by (apply Rabs_le; lra). apply Rabs_le_inv in H1.
  assert (B1 : Rabs (vc - vh) <= 2 * (n * V)) by (apply Rabs_le; lra).
  assert (B2 : Rabs (vc + vh) <= 2 * (n * V)) by (apply Rabs_le; lra).
  assert (UB1 : u * Rabs (vc - vh) <= 2 * (n * u * V)).
  { replace (2 * (n * u * V)) with (u * (2 * (n * V))) by ring. apply Rmult_le_compat_l; lra. }
  assert (UB2 : u * Rabs (vc + vh) <= 2 * (n * u * V)).
  { replace (2 * (n * u * V)) with (u * (2 * (n * V))) by ring. apply Rmult_le_compat_l; lra. }
  destruct (rr_sub _ _ _ _ _ _ _ RR c half Fc Fm) as (Fl & Dl); [fold vc vh; lra|].
  destruct (rr_add _ _ _ _ _ _ _ RR c half Fc Fm) as (Fu & Du & _); [fold vc vh; lra|].
  fold vc vh in Dl, Du. apply Rabs_le_inv in Dl, Du.
  split; [exact Fl|]. split; [apply Rabs_le; lra|]. split; [exact Fu|]. apply Rabs_le; lra.
Qed.

(** The quotient that gives the time at which a boundary is reached: [d] is the computed
    distance of the boundary in the direction of the ray. *)
Lemma time_near (d r : rT A) d0 : fin d = true -> fin r = true -> lam * V <= Rabs (val r) <= L * V ->
  Rabs (val d) <= 3 * V -> - (8 * n * u * V) <= d0 -> Rabs (val d - d0) <= 14 * n * u * V ->
  let t := r_abs A (r_div A d r) in
  fin t = true /\ 0 <= val t /\ Rabs (val t * Rabs (val r) - d0) <= 40 * n * u * V.
Proof.
  intros Fd Fr Hr Hd Hd0 Dd t. destruct HV as (FV & Vp), HM as (M1 & M2 & M3 & Lp), Heta as (E0 & E1 & E2 & E3).
  destruct nu_small as (NU & US & NP). pose proof n_ge1 as N1.
  assert (UV : 0 < u * V) by (apply Rmult_lt_0_compat; lra).
  assert (NUV : u * V <= n * u * V) by (rewrite <- (Rmult_1_l u) at 1; apply Rmult_le_compat_r; [lra|apply Rmult_le_compat_r; lra]).
  set (a := Rabs (val r)) in *. assert (Lv : 0 < lam * V) by (apply Rmult_lt_0_compat; lra). assert (Ap : 0 < a) by lra.
  assert (Rn : val r <> 0) by (intros Q; unfold a in Ap; rewrite Q, Rabs_R0 in Ap; lra).
  assert (Q0 : Rabs (val d / val r) = Rabs (val d) / a) by (unfold a, Rdiv; now rewrite Rabs_mult, Rabs_inv).
  assert (Q1 : Rabs (val d / val r) * a = Rabs (val d)) by (rewrite Q0; field; lra).
  destruct (rr_div _ _ _ _ _ _ _ RR d r Fd Fr Rn) as (Fq & Dq).
  { apply Rmult_le_reg_r with a; [exact Ap|]. rewrite Q1. apply Rle_trans with (8 * n * V).
    - apply Rle_trans with (1 := Hd). apply Rmult_le_compat_r; lra.
    - apply Rle_trans with (M * (lam * V)); [|apply Rmult_le_compat_l; lra].
      replace (M * (lam * V)) with (lam * M * V) by ring. apply Rmult_le_compat_r; lra. }
  destruct (rr_abs _ _ _ _ _ _ _ RR _ Fq) as (Ft & Et). fold t in Ft, Et. split; [exact Ft|]. split; [rewrite Et; apply Rabs_pos|].
  assert (T1 : Rabs (val t - Rabs (val d / val r)) <= u * Rabs (val d / val r) + eta).
  { rewrite Et. eapply Rle_trans; [apply Rabs_triang_inv2|exact Dq]. }
  assert (T2 : Rabs (val t * a - Rabs (val d)) <= 4 * (u * V)).
  { rewrite <- Q1. replace (val t * a - Rabs (val d / val r) * a) with ((val t - Rabs (val d / val r)) * a) by ring.
    rewrite Rabs_mult, (Rabs_pos_eq a) by lra. apply Rle_trans with ((u * Rabs (val d / val r) + eta) * a).
    - apply Rmult_le_compat_r; lra.
    - rewrite Rmult_plus_distr_r, Rmult_assoc, Q1.
      assert (u * Rabs (val d) <= u * (3 * V)) by (apply Rmult_le_compat_l; lra).
      assert (eta * a <= u * V).
      { apply Rle_trans with (eta * (L * V)); [apply Rmult_le_compat_l; lra|]. rewrite <- Rmult_assoc. apply Rmult_le_compat_r; lra. }
      lra. }
  apply Rabs_le_inv in T2, Dd. apply Rabs_le.
  unfold Rabs in T2. destruct (Rcase_abs (val d)); lra.
Qed.

Lemma first_crossing (p r : rT A) i : fin p = true -> fin r = true -> (0 <= i < N)%Z ->
  index_ok (8 * n * u * V) (val p) i -> lam * V <= Rabs (val r) <= L * V ->
  (0 < val r -> crosses (drift 0) (val p) (val r) ((IZR i + 1) * V) (first_t A g p r i)) /\
  (val r < 0 -> crosses (drift 0) (val p) (val r) (IZR i * V) (first_t A g p r i)).
Proof.
  intros Fp Fr Hi Hp Hr. destruct (corners i Hi) as (Fl & Dl & Fh & Dh).
  destruct (Hp i ltac:(lia)) as (P1 & _). destruct (Hp (i + 1)%Z ltac:(lia)) as (_ & P2).
  specialize (P1 ltac:(lia)). specialize (P2 ltac:(lia)). rewrite plus_IZR in P2.
  unfold first_t. set (half := r_mul A (rg_voxel A g) (r_half A)) in *.
  set (c := r_mul A (rg_voxel A g) (r_add A (r_ofZ A i) (r_half A))) in *.
  set (lo := r_sub A c half) in *. set (hi := r_add A c half) in *.
  destruct (rr_zero _ _ _ _ _ _ _ RR) as (F0 & E0). unfold axis_t.
  rewrite !(rr_ltb _ _ _ _ _ _ _ RR) by assumption. rewrite E0.
  pose proof HV as (FV & Vp). destruct nu_small as (NU & US & NP). pose proof n_ge1 as N1.
  destruct HM as (M1 & M2 & M3 & Lp). destruct HK as (K1 & K2 & K3).
  assert (UV : 0 < u * V) by (apply Rmult_lt_0_compat; lra).
  assert (NUV : u * V <= n * u * V) by (rewrite <- (Rmult_1_l u) at 1; apply Rmult_le_compat_r; [lra|apply Rmult_le_compat_r; lra]).
  assert (NUV2 : n * u * V <= / 129 * V) by (apply Rmult_le_compat_r; lra).
  assert (VM : 3 * V <= M) by (apply Rle_trans with (2 := M2); apply Rmult_le_compat_r; lra).
  apply Rabs_le_inv in Dl, Dh.
  assert (D0 : drift 0 = 40 * n * u * V) by (unfold drift; ring).
  split; intros Hs; unfold crosses; rewrite D0.
  - rewrite Rlt_bool_true by exact Hs.
    assert (B : Rabs (val hi - val p) <= 2 * V) by (apply Rabs_le; lra).
    destruct (rr_sub _ _ _ _ _ _ _ RR hi p Fh Fp) as (Fd & Dd); [lra|].
    assert (UB : u * Rabs (val hi - val p) <= u * (2 * V)) by (apply Rmult_le_compat_l; lra).
    apply Rabs_le_inv in Dd, B.
    destruct (time_near (r_sub A hi p) r ((IZR i + 1) * V - val p) Fd Fr Hr) as (Ft & Tp & Dt);
      [apply Rabs_le; lra|lra|apply Rabs_le; lra|].
    split; [exact Ft|]. split; [exact Tp|]. rewrite (Rabs_pos_eq (val r)) in Dt by lra.
    eapply Rle_trans; [|exact Dt]. right. f_equal. ring.
  - rewrite Rlt_bool_false by lra. rewrite Rlt_bool_true by exact Hs.
    assert (B : Rabs (val p - val lo) <= 2 * V) by (apply Rabs_le; lra).
    destruct (rr_sub _ _ _ _ _ _ _ RR p lo Fp Fl) as (Fd & Dd); [lra|].
    assert (UB : u * Rabs (val p - val lo) <= u * (2 * V)) by (apply Rmult_le_compat_l; lra).
    apply Rabs_le_inv in Dd, B.
    destruct (time_near (r_sub A p lo) r (val p - IZR i * V) Fd Fr Hr) as (Ft & Tp & Dt);
      [apply Rabs_le; lra|lra|apply Rabs_le; lra|].
    split; [exact Ft|]. split; [exact Tp|]. rewrite (Rabs_left (val r)) in Dt by lra.
    eapply Rle_trans; [|exact Dt]. right.
    match goal with |- Rabs ?x = Rabs ?y => replace x with (- y) by ring end. apply Rabs_Ropp.
Qed.

(** One more voxel. *)
Lemma next_crossing (r t : rT A) o b k sg : fin r = true -> lam * V <= Rabs (val r) <= L * V ->
  (sg = 1 \/ sg = -1) -> val r = sg * Rabs (val r) -> 0 <= k -> k + 1 <= n -> Rabs (b - o) <= (n + 1) * V ->
  crosses (drift k) o (val r) b t ->
  crosses (drift (k + 1)) o (val r) (b + sg * V) (r_add A t (delta_t A g r)) /\ val t <= val (r_add A t (delta_t A g r)).
Proof.
  intros Fr Hr Hsg Er Hk0 Hk Hb (Ft & Tp & Dt). pose proof HV as (FV & Vp). destruct nu_small as (NU & US & NP). pose proof n_ge1 as N1.
  destruct HM as (M1 & M2 & M3 & Lp). destruct Heta as (E0 & E1 & E2 & E3).
  assert (UV : 0 < u * V) by (apply Rmult_lt_0_compat; lra).
  assert (DB : drift k <= V).
  { apply Rle_trans with (n * (n + 64) * u * V); [apply drift_bound; lra|]. rewrite <- (Rmult_1_l V) at 2. apply Rmult_le_compat_r; [lra|].
    apply Rle_trans with (2 := Hsmall). rewrite !Rmult_assoc. apply Rmult_le_compat_l; [lra|]. apply Rmult_le_compat_r; lra. }
  set (a := Rabs (val r)) in *. assert (Lv : 0 < lam * V) by (apply Rmult_lt_0_compat; lra). assert (Ap : 0 < a) by lra.
  assert (Rn : val r <> 0) by (intros Q; unfold a in Ap; rewrite Q, Rabs_R0 in Ap; lra).
  assert (Q0 : Rabs (V / val r) = V / a) by (unfold a, Rdiv; now rewrite Rabs_mult, Rabs_inv, (Rabs_pos_eq V) by lra).
  assert (Q1 : V / a * a = V) by (field; lra).
  assert (VA : 8 * n * V <= M * a).
  { apply Rle_trans with (M * (lam * V)); [|apply Rmult_le_compat_l; lra].
    replace (M * (lam * V)) with (lam * M * V) by ring. apply Rmult_le_compat_r; lra. }
  assert (NV : V <= n * V) by (rewrite <- (Rmult_1_l V) at 1; apply Rmult_le_compat_r; lra).
  destruct (rr_div _ _ _ _ _ _ _ RR (rg_voxel A g) r FV Fr Rn) as (Fq & Dq).
  { rewrite Q0. apply Rmult_le_reg_r with a; [exact Ap|]. rewrite Q1. lra. }
  destruct (rr_abs _ _ _ _ _ _ _ RR _ Fq) as (Fd & Ed). fold (delta_t A g r) in Fd, Ed. set (d := delta_t A g r) in *.
  assert (Dp : 0 <= val d) by (rewrite Ed; apply Rabs_pos).
  assert (D1 : Rabs (val d - V / a) <= u * (V / a) + eta).
  { rewrite <- Q0, Ed. eapply Rle_trans; [apply Rabs_triang_inv2|exact Dq]. }
  assert (D2 : Rabs (val d * a - V) <= 2 * (u * V)).
  { rewrite <- Q1 at 1. replace (val d * a - V / a * a) with ((val d - V / a) * a) by ring.
    rewrite Rabs_mult, (Rabs_pos_eq a) by lra. apply Rle_trans with ((u * (V / a) + eta) * a).
    - apply Rmult_le_compat_r; lra.
    - rewrite Rmult_plus_distr_r, Rmult_assoc, Q1.
      assert (eta * a <= u * V).
      { apply Rle_trans with (eta * (L * V)); [apply Rmult_le_compat_l; lra|]. rewrite <- Rmult_assoc. apply Rmult_le_compat_r; lra. }
      lra. }
  assert (SS : sg * sg = 1) by (destruct Hsg as [-> | ->]; ring).
  assert (Rs : forall x, Rabs (sg * x) = Rabs x).
  { intros x. rewrite Rabs_mult. replace (Rabs sg) with 1; [ring|]. destruct Hsg as [-> | ->]; unfold Rabs; destruct (Rcase_abs _); lra. }
  set (d0 := sg * (b - o)).
  assert (D0 : Rabs d0 <= (n + 1) * V) by (unfold d0; now rewrite Rs).
  assert (Dt' : Rabs (val t * a - d0) <= drift k).
  { rewrite <- Rs. eapply Rle_trans; [|exact Dt]. right. f_equal. unfold d0.
    rewrite Er. replace (sg * (val t * a - sg * (b - o))) with (val t * (sg * a) - (sg * sg) * (b - o)) by ring. rewrite SS. ring. }
  apply Rabs_le_inv in D0, Dt', D2.
  assert (US2 : u * V <= / 129 * V) by (apply Rmult_le_compat_r; lra).
  assert (S1 : 0 <= (val t + val d) * a <= (n + 4) * V) by (split; [apply Rmult_le_pos; lra|lra]).
  destruct (rr_add _ _ _ _ _ _ _ RR t d Ft Fd) as (Fa & Da & Ma & _).
  { rewrite Rabs_pos_eq by lra. apply Rmult_le_reg_r with a; [exact Ap|]. lra. }
  specialize (Ma Dp). rewrite (Rabs_pos_eq (val t + val d)) in Da by lra.
  split; [|exact Ma]. split; [exact Fa|]. split; [lra|]. set (t' := val (r_add A t d)) in *.
  assert (Da' : Rabs (t' * a - (val t + val d) * a) <= u * ((n + 4) * V)).
  { replace (t' * a - (val t + val d) * a) with ((t' - (val t + val d)) * a) by ring.
    rewrite Rabs_mult, (Rabs_pos_eq a) by lra. apply Rle_trans with (u * (val t + val d) * a); [apply Rmult_le_compat_r; lra|].
    rewrite Rmult_assoc. apply Rmult_le_compat_l; lra. }
  apply Rabs_le_inv in Da'.
  assert (Dn : drift (k + 1) = drift k + u * ((n + 4) * V) + 2 * (u * V)) by (unfold drift; ring).
  rewrite Dn. rewrite <- Rs.
  replace (sg * (o + t' * val r - (b + sg * V))) with (t' * a - d0 - V).
  - apply Rabs_le. lra.
  - rewrite Er. unfold d0. replace (sg * (o + t' * (sg * a) - (b + sg * V))) with (sg * o + (sg * sg) * (t' * a) - sg * b - (sg * sg) * V) by ring.
    rewrite SS. ring.
Qed.

(** ** One axis of the walk *)

(** [dl] is the error of a start that is not the sensor. *)
Section Slack.
Variable dl : R.
Hypothesis Hdl : 0 <= dl.
Notation E := (n * (n + 64) * u * V + dl).

Lemma E_facts : 0 < u * V /\ u * V <= n * u * V /\ 24 * n * u * V + dl <= E /\ n * u * V <= / 129 * V.
Proof.
  destruct HV as (_ & Vp). destruct nu_small as (NU & US & NP). pose proof n_ge1 as N1.
  assert (UV : 0 < u * V) by (apply Rmult_lt_0_compat; lra).
  assert (NUV : u * V <= n * u * V) by (rewrite <- (Rmult_1_l u) at 1; apply Rmult_le_compat_r; [lra|apply Rmult_le_compat_r; lra]).
  split; [exact UV|]. split; [exact NUV|]. split.
  - apply Rplus_le_compat_r. replace (24 * n * u * V) with (24 * (n * u * V)) by ring. replace (n * (n + 64) * u * V) with ((n + 64) * (n * u * V)) by ring.
    apply Rmult_le_compat_r; lra.
  - apply Rmult_le_compat_r; lra.
Qed.

(** What is known of an axis: start [o], direction [r], first and last index, and the
    parameter [s] at which the ray ends.  [rho] is the direction, or zero if the axis is so
    close to a boundary that rounding turned it around. *)
Record axis_line (o r : rT A) (rho : R) (si fi na : Z) (s : R) : Prop := {
  al_fin : fin o = true /\ fin r = true;
  al_start : index_ok (8 * n * u * V) (val o) si;
  al_grid : (0 <= si < na)%Z /\ (na <= N)%Z;
  al_end : index_ok (24 * n * u * V + dl) (val o + s * rho) fi;
  al_dir : (0 < rho -> (si <= fi)%Z) /\ (rho < 0 -> (fi <= si)%Z) /\ (rho = 0 -> (val r = 0 /\ fi = si) \/ (val r <> 0 /\ Z.abs (fi - si) = 1%Z));
  al_rho : rho = val r \/ rho = 0;
  al_size : val r = 0 \/ lam * V <= Rabs (val r) <= L * V;
  al_s : 0 <= s }.

Definition axis_ok (o r : rT A) (rho : R) (si fi c : Z) (tau : R) (t : rT A) : Prop :=
  (0 < rho /\ (si <= c <= fi)%Z /\ crosses (drift (IZR (c - si))) (val o) rho ((IZR c + 1) * V) t /\
   IZR c * V - E <= val o + tau * rho /\ tau <= val t) \/
  (rho < 0 /\ (fi <= c <= si)%Z /\ crosses (drift (IZR (si - c))) (val o) rho (IZR c * V) t /\
   val o + tau * rho <= (IZR c + 1) * V + E /\ tau <= val t) \/
  (rho = 0 /\ val r = 0 /\ c = si /\ c = fi /\ t = r_inf A /\ IZR c * V - E <= val o <= (IZR c + 1) * V + E) \/
  (rho = 0 /\ val r <> 0 /\ Z.abs (fi - si) = 1%Z /\ fin t = true /\ tau <= val t /\
   (c = si /\ t = first_t A g o r si \/ c = fi) /\
   (IZR si * V - E <= val o <= (IZR si + 1) * V + E) /\ (IZR fi * V - E <= val o <= (IZR fi + 1) * V + E)).

Definition deep (x : R) (v : Z) : Prop := IZR v * V + E < x < (IZR v + 1) * V - E.

Lemma IZR_cmp x y : IZR x * V < (IZR y + 1) * V -> (x <= y)%Z.
Proof.
  intros H. destruct HV as (_ & Vp). apply Rmult_lt_reg_r in H; [|exact Vp].
  rewrite <- plus_IZR in H. apply lt_IZR in H. lia.
Qed.

Lemma Rmult_neg_r x y z : x <= 0 -> y <= z -> z * x <= y * x.
Proof. intros H1 H2. rewrite !(Rmult_comm _ x). now apply Rmult_le_compat_neg_l. Qed.

Section Axis.
Variables (o r : rT A) (rho : R) (si fi na : Z) (s : R).
Hypothesis AL : axis_line o r rho si fi na s.

Lemma start_near : IZR si * V - 8 * n * u * V <= val o <= (IZR si + 1) * V + 8 * n * u * V.
Proof.
  destruct (al_grid _ _ _ _ _ _ _ AL) as (G1 & G2). pose proof (al_start _ _ _ _ _ _ _ AL) as S.
  split; [apply (S si); lia|]. rewrite <- plus_IZR. apply (S (si + 1)%Z); lia.
Qed.

(** An axis that was turned around is near both voxels. *)
Lemma turned_near : rho = 0 -> Z.abs (fi - si) = 1%Z -> IZR fi * V - E <= val o <= (IZR fi + 1) * V + E.
Proof.
  intros H0 H1. pose proof start_near as S. destruct E_facts as (E1 & E2 & E3 & E5). destruct HV as (_ & Vp).
  destruct (al_grid _ _ _ _ _ _ _ AL) as (G1 & G2). pose proof (al_end _ _ _ _ _ _ _ AL) as F. rewrite H0, Rmult_0_r, Rplus_0_r in F.
  destruct (Z.eq_dec fi (si + 1)) as [Q|Q].
  - destruct (F (si + 1)%Z ltac:(lia)) as (F1 & _). specialize (F1 ltac:(lia)). rewrite Q, plus_IZR in *. lra.
  - assert (Q' : fi = (si - 1)%Z) by lia. destruct (F si ltac:(lia)) as (_ & F2). specialize (F2 ltac:(lia)). rewrite Q', minus_IZR. lra.
Qed.

Lemma first_fin : val r <> 0 -> fin (first_t A g o r si) = true /\ 0 <= val (first_t A g o r si).
Proof.
  destruct AL as [(Fo & Fr) Hs (G1 & G2) He _ _ Hz _]. intros Hr. destruct Hz as [Hz|Hz]; [easy|].
  destruct (first_crossing o r si Fo Fr ltac:(lia) Hs Hz) as (C1 & C2).
  destruct (Rtotal_order (val r) 0) as [Q|[Q|Q]]; [destruct (C2 Q) as (K1 & K2 & _)|easy|destruct (C1 Q) as (K1 & K2 & _)]; split; assumption.
Qed.

Lemma ax_init : axis_ok o r rho si fi si 0 (first_t A g o r si).
Proof.
  pose proof start_near as S. destruct E_facts as (E1 & E2 & E3 & E5).
  pose proof turned_near as TN. pose proof first_fin as FF.
  destruct AL as [(Fo & Fr) Hs (G1 & G2) He (D1 & D2 & D3) Rh Hz _].
  destruct (Rtotal_order rho 0) as [Hr|[Hr|Hr]].
  - destruct Rh as [Rh|Rh]; [|lra]. destruct Hz as [Hz|Hz]; [lra|]. right; left.
    destruct (first_crossing o r si Fo Fr ltac:(lia) Hs Hz) as (_ & C). rewrite <- Rh in C. specialize (C Hr). specialize (D2 Hr).
    split; [exact Hr|]. split; [lia|]. rewrite Z.sub_diag. split; [exact C|]. split; [lra|apply C].
  - destruct (D3 Hr) as [(R0 & Ef)|(R0 & Ef)].
    + right; right; left. split; [exact Hr|]. split; [exact R0|]. split; [easy|]. split; [symmetry; exact Ef|]. split; [|lra].
      unfold first_t, axis_t. destruct (rr_zero _ _ _ _ _ _ _ RR) as (F0 & Z0).
      rewrite !(rr_ltb _ _ _ _ _ _ _ RR) by assumption. rewrite Z0, !Rlt_bool_false by lra. reflexivity.
    + right; right; right. destruct (FF R0) as (Ft & Tp). split; [exact Hr|]. split; [exact R0|]. split; [exact Ef|]. split; [exact Ft|].
      split; [exact Tp|]. split; [left; easy|]. split; [lra|exact (TN Hr Ef)].
  - destruct Rh as [Rh|Rh]; [|lra]. destruct Hz as [Hz|Hz]; [lra|]. left.
    destruct (first_crossing o r si Fo Fr ltac:(lia) Hs Hz) as (C & _). rewrite <- Rh in C. specialize (C Hr). specialize (D1 Hr).
    split; [exact Hr|]. split; [lia|]. rewrite Z.sub_diag. split; [exact C|]. split; [lra|apply C].
Qed.

Lemma ax_time c tau t : axis_ok o r rho si fi c tau t -> fin t = true \/ t = r_inf A.
Proof. intros [(_ & _ & (H & _) & _)|[(_ & _ & (H & _) & _)|[(_ & _ & _ & _ & H & _)|(_ & _ & _ & H & _)]]]; auto. Qed.

Lemma inf_not_fin : fin (r_inf A) = true -> False.
Proof. intros H. destruct (rr_leb_inf _ _ _ _ _ _ _ RR _ H) as (H1 & H2). congruence. Qed.

Lemma ax_stay c tau tau' t : axis_ok o r rho si fi c tau t -> tau <= tau' -> (t = r_inf A \/ tau' <= val t) ->
  axis_ok o r rho si fi c tau' t.
Proof.
  intros [(Hr & Hc & C & Hb & Ht)|[(Hr & Hc & C & Hb & Ht)|[(Hr & Hr0 & Hc & Hf & Hi & Hb)|(Hr & Hr0 & Hd & Hf & Ht & Hb)]]] H1 H2.
  - left. destruct H2 as [->|H2]; [destruct C as (C & _); now destruct (inf_not_fin C)|].
    repeat split; try easy; try apply C. assert (tau * rho <= tau' * rho) by (apply Rmult_le_compat_r; lra). lra.
  - right; left. destruct H2 as [->|H2]; [destruct C as (C & _); now destruct (inf_not_fin C)|].
    repeat split; try easy; try apply C. assert (tau' * rho <= tau * rho) by (apply Rmult_neg_r; lra). lra.
  - right; right; left. repeat split; easy.
  - right; right; right. destruct H2 as [->|H2]; [now destruct (inf_not_fin Hf)|].
    split; [exact Hr|]. split; [exact Hr0|]. split; [exact Hd|]. split; [exact Hf|]. split; [exact H2|exact Hb].
Qed.

(** Where the crossing is, for voxels of the grid. *)
Lemma cross_bound k b t : 0 <= k <= n -> crosses (drift k) (val o) rho b t ->
  b - E <= val o + val t * rho <= b + E.
Proof.
  intros Hk (_ & _ & H). destruct (drift_bound k Hk) as (_ & D). apply Rabs_le_inv in H. lra.
Qed.

Lemma up_bound c t : (si <= c < na)%Z -> crosses (drift (IZR (c - si))) (val o) rho ((IZR c + 1) * V) t ->
  (IZR c + 1) * V - E <= val o + val t * rho <= (IZR c + 1) * V + E.
Proof.
  intros Hc. destruct (al_grid _ _ _ _ _ _ _ AL) as (G1 & G2). apply cross_bound. split; apply IZR_le; lia.
Qed.
Lemma down_bound c t : (0 <= c <= si)%Z -> crosses (drift (IZR (si - c))) (val o) rho (IZR c * V) t ->
  IZR c * V - E <= val o + val t * rho <= IZR c * V + E.
Proof.
  intros Hc. destruct (al_grid _ _ _ _ _ _ _ AL) as (G1 & G2). apply cross_bound. split; apply IZR_le; lia.
Qed.

Lemma ax_cross c tau t : axis_ok o r rho si fi c tau t -> (0 <= c < na)%Z -> c <> fi ->
  fin t = true /\ tau <= val t /\
  axis_ok o r rho si fi (c + step_of (fi - si)) (val t) (r_add A t (delta_t A g r)).
Proof.
  intros H Hc Hf. pose proof start_near as S. destruct E_facts as (E1 & E2 & E3 & E5).
  pose proof (al_grid _ _ _ _ _ _ _ AL) as (G1 & G2). destruct (al_fin _ _ _ _ _ _ _ AL) as (_ & Fr).
  destruct HV as (_ & Vp).
  assert (SI : 0 <= IZR si * V /\ (IZR si + 1) * V <= n * V).
  { split; [apply Rmult_le_pos; [apply IZR_le; lia|lra]|]. apply Rmult_le_compat_r; [lra|]. rewrite <- plus_IZR. apply IZR_le; lia. }
  assert (CI : 0 <= IZR c * V /\ (IZR c + 1) * V <= n * V).
  { split; [apply Rmult_le_pos; [apply IZR_le; lia|lra]|]. apply Rmult_le_compat_r; [lra|]. rewrite <- plus_IZR. apply IZR_le; lia. }
  destruct H as [(Hr & Hb & C & Ho & Ht)|[(Hr & Hb & C & Ho & Ht)|[(_ & _ & _ & Q & _)|(Hr & Hr0 & Hd & Ft & Ht & Hq & No & Nf)]]]; [| |easy|].
  3:{ destruct Hq as [(Ec & Et)|Q]; [|easy]. destruct (al_size _ _ _ _ _ _ _ AL) as [Q|Hz]; [easy|].
      destruct (first_crossing o r si (proj1 (al_fin _ _ _ _ _ _ _ AL)) Fr ltac:(lia) (al_start _ _ _ _ _ _ _ AL) Hz) as (C1 & C2).
      rewrite <- Et in C1, C2. split; [exact Ft|]. split; [exact Ht|]. right; right; right. split; [exact Hr|]. split; [exact Hr0|].
      split; [exact Hd|].
      assert (NX : fin (r_add A t (delta_t A g r)) = true /\ val t <= val (r_add A t (delta_t A g r))).
      { destruct (Rtotal_order (val r) 0) as [Q|[Q|Q]]; [|easy|].
        - destruct (next_crossing r t (val o) (IZR si * V) 0 (-1) Fr Hz) as ((C' & _) & M'); auto; try lra;
            [rewrite Rabs_left; lra|pose proof n_ge1; lra|apply Rabs_le; lra].
        - destruct (next_crossing r t (val o) ((IZR si + 1) * V) 0 1 Fr Hz) as ((C' & _) & M'); auto; try lra;
            [rewrite Rabs_pos_eq; lra|pose proof n_ge1; lra|apply Rabs_le; lra]. }
      split; [apply NX|]. split; [apply NX|]. split; [right|split; [exact No|exact Nf]].
      rewrite Ec. unfold step_of. destruct (Z.ltb_spec 0 (fi - si)); [lia|destruct (Z.ltb_spec (fi - si) 0); lia]. }
  - destruct (al_size _ _ _ _ _ _ _ AL) as [Q|Hz]; [destruct (al_rho _ _ _ _ _ _ _ AL); lra|].
    assert (Rh : rho = val r) by (destruct (al_rho _ _ _ _ _ _ _ AL); [assumption|lra]). rewrite Rh in C, Hr.
    assert (B : Rabs ((IZR c + 1) * V - val o) <= (n + 1) * V) by (apply Rabs_le; lra).
    destruct (next_crossing r t (val o) ((IZR c + 1) * V) (IZR (c - si)) 1 Fr Hz) as (C' & M'); auto.
    { rewrite Rabs_pos_eq; lra. }
    { apply IZR_le; lia. }
    { rewrite <- plus_IZR. apply IZR_le; lia. }
    rewrite <- Rh in C, C', Hr.
    split; [apply C|]. split; [exact Ht|]. left.
    assert (St : step_of (fi - si) = 1%Z) by (unfold step_of; destruct (Z.ltb_spec 0 (fi - si)); lia). rewrite St.
    split; [exact Hr|]. split; [lia|]. rewrite plus_IZR.
    split; [|split; [apply (up_bound c t); [lia|exact C]|exact M']].
    replace (IZR (c + 1 - si)) with (IZR (c - si) + 1) by (rewrite <- plus_IZR; f_equal; lia).
    replace ((IZR c + 1 + 1) * V) with ((IZR c + 1) * V + 1 * V) by ring. exact C'.
  - destruct (al_size _ _ _ _ _ _ _ AL) as [Q|Hz]; [destruct (al_rho _ _ _ _ _ _ _ AL); lra|].
    assert (Rh : rho = val r) by (destruct (al_rho _ _ _ _ _ _ _ AL); [assumption|lra]). rewrite Rh in C, Hr.
    assert (B : Rabs (IZR c * V - val o) <= (n + 1) * V) by (apply Rabs_le; lra).
    destruct (next_crossing r t (val o) (IZR c * V) (IZR (si - c)) (-1) Fr Hz) as (C' & M'); auto.
    { rewrite Rabs_left; lra. }
    { apply IZR_le; lia. }
    { rewrite <- plus_IZR. apply IZR_le; lia. }
    rewrite <- Rh in C, C', Hr.
    split; [apply C|]. split; [exact Ht|]. right; left.
    assert (St : step_of (fi - si) = (-1)%Z)
      by (unfold step_of; destruct (Z.ltb_spec 0 (fi - si)); [lia|destruct (Z.ltb_spec (fi - si) 0); lia]). rewrite St.
    split; [exact Hr|]. split; [lia|]. rewrite plus_IZR.
    split; [|split; [|exact M']].
    + replace (IZR (si - (c + -1))) with (IZR (si - c) + 1) by (rewrite <- plus_IZR; f_equal; lia).
      replace ((IZR c + IZR (-1)) * V) with (IZR c * V + -1 * V) by (simpl; ring). exact C'.
    + replace ((IZR c + IZR (-1) + 1) * V) with (IZR c * V) by (simpl; ring). apply (down_bound c t); [lia|exact C].
Qed.

Lemma ax_near c tau th t : axis_ok o r rho si fi c tau t -> (0 <= c < na)%Z -> tau <= th -> (t = r_inf A \/ th <= val t) ->
  IZR c * V - E <= val o + th * rho <= (IZR c + 1) * V + E.
Proof.
  intros H Hc Hth Ht. apply (ax_stay c tau th) in H; [|exact Hth|exact Ht].
  destruct H as [(Hr & Hb & C & Ho & Hv)|[(Hr & Hb & C & Ho & Hv)|[(Hr & _ & _ & _ & _ & Q)|(Hr & _ & _ & _ & _ & Hq & No & Nf)]]].
  - split; [exact Ho|]. assert (th * rho <= val t * rho) by (apply Rmult_le_compat_r; lra).
    pose proof (up_bound c t ltac:(lia) C). lra.
  - split; [|exact Ho]. assert (val t * rho <= th * rho) by (apply Rmult_neg_r; lra).
    pose proof (down_bound c t ltac:(lia) C). lra.
  - rewrite Hr. lra.
  - rewrite Hr. destruct Hq as [(-> & _)| ->]; lra.
Qed.

Lemma near_deep c v x : IZR c * V - E <= x <= (IZR c + 1) * V + E -> deep x v -> v = c.
Proof.
  intros H (D1 & D2). assert (v <= c)%Z by (apply IZR_cmp; lra). assert (c <= v)%Z by (apply IZR_cmp; lra). lia.
Qed.

Lemma near_both x v : Z.abs (fi - si) = 1%Z -> IZR si * V - E <= x <= (IZR si + 1) * V + E -> IZR fi * V - E <= x <= (IZR fi + 1) * V + E ->
  deep x v -> False.
Proof. intros H N1 N2 D. pose proof (near_deep _ _ _ N1 D). pose proof (near_deep _ _ _ N2 D). lia. Qed.

(** Later locations on the segment, once the axis has reached its last index. *)
Lemma ax_last c tau t th v : axis_ok o r rho si fi c tau t -> c = fi -> (0 <= v < na)%Z -> tau <= th <= s ->
  deep (val o + th * rho) v -> v = fi.
Proof.
  intros H Hc Hv Hth (D1 & D2). destruct (al_grid _ _ _ _ _ _ _ AL) as (G1 & G2).
  pose proof (al_end _ _ _ _ _ _ _ AL) as F. destruct E_facts as (E1 & E2 & E3 & E5).
  destruct H as [(Hr & Hb & C & Ho & Ht)|[(Hr & Hb & C & Ho & Ht)|[(Hr & _ & _ & _ & _ & Q)|(Hr & _ & Hd & _ & _ & _ & No & Nf)]]].
  - assert (M1 : tau * rho <= th * rho) by (apply Rmult_le_compat_r; lra).
    assert (M2 : th * rho <= s * rho) by (apply Rmult_le_compat_r; lra).
    assert (c <= v)%Z by (apply IZR_cmp; lra).
    destruct (Z.eq_dec v fi) as [|Q]; [easy|exfalso].
    destruct (F v ltac:(lia)) as (_ & F2). specialize (F2 ltac:(lia)). lra.
  - assert (M1 : th * rho <= tau * rho) by (apply Rmult_neg_r; lra).
    assert (M2 : s * rho <= th * rho) by (apply Rmult_neg_r; lra).
    assert (v <= c)%Z by (apply IZR_cmp; lra).
    destruct (Z.eq_dec v fi) as [|Q]; [easy|exfalso].
    destruct (F (v + 1)%Z ltac:(lia)) as (F1 & _). specialize (F1 ltac:(lia)). rewrite plus_IZR in F1. lra.
  - rewrite <- Hc. eapply near_deep; [exact Q|]. rewrite Hr in D1, D2. split; lra.
  - exfalso. apply (near_both (val o) v Hd No Nf). rewrite Hr in D1, D2. split; lra.
Qed.

Lemma ax_stop c tau t th v : axis_ok o r rho si fi c tau t -> c = fi -> (0 <= c < na)%Z -> (0 <= v < na)%Z ->
  fin t = true -> val t <= th <= s -> deep (val o + th * rho) v -> False.
Proof.
  intros H Hc Hg Hv Ft Hth D.
  assert (Hv' : v = fi).
  { assert (tau <= val t) by (destruct H as [(_ & _ & _ & _ & Q)|[(_ & _ & _ & _ & Q)|[(_ & _ & _ & _ & Q & _)|(_ & _ & _ & _ & Q & _)]]]; try exact Q;
      rewrite Q in Ft; destruct (inf_not_fin Ft)).
    eapply (ax_last c tau t th); eauto; lra. }
  destruct D as (D1 & D2). subst v. subst c.
  destruct H as [(Hr & Hb & C & Ho & Ht)|[(Hr & Hb & C & Ho & Ht)|[(_ & _ & _ & _ & Q & _)|(Hr & _ & Hd & _ & _ & _ & No & Nf)]]].
  - assert (val t * rho <= th * rho) by (apply Rmult_le_compat_r; lra).
    pose proof (up_bound fi t ltac:(lia) C). lra.
  - assert (th * rho <= val t * rho) by (apply Rmult_neg_r; lra).
    pose proof (down_bound fi t ltac:(lia) C). lra.
  - rewrite Q in Ft. destruct (inf_not_fin Ft).
  - apply (near_both (val o) fi Hd No Nf). rewrite Hr in D1, D2. split; lra.
Qed.

Lemma ax_out c tau t th v : axis_ok o r rho si fi c tau t -> ~ (0 <= c < na)%Z -> (0 <= v < na)%Z -> tau <= th ->
  deep (val o + th * rho) v -> False.
Proof.
  intros H Hc Hv Hth (D1 & D2). destruct (al_grid _ _ _ _ _ _ _ AL) as (G1 & G2).
  destruct H as [(Hr & Hb & C & Ho & Ht)|[(Hr & Hb & C & Ho & Ht)|[(_ & _ & Q & _)|(Hr & _ & Hd & _ & _ & _ & No & Nf)]]]; [| |lia|].
  - assert (tau * rho <= th * rho) by (apply Rmult_le_compat_r; lra).
    assert (c <= v)%Z by (apply IZR_cmp; lra). lia.
  - assert (th * rho <= tau * rho) by (apply Rmult_neg_r; lra).
    assert (v <= c)%Z by (apply IZR_cmp; lra). lia.
  - apply (near_both (val o) v Hd No Nf). rewrite Hr in D1, D2. split; lra.
Qed.

(** A visited voxel that is near a location beyond the end is near the end. *)
Lemma end_near v th : (0 <= v < na)%Z -> (Z.min si fi <= v <= Z.max si fi)%Z -> s <= th ->
  IZR v * V - E <= val o + th * rho <= (IZR v + 1) * V + E ->
  IZR v * V - E <= val o + s * rho <= (IZR v + 1) * V + E.
Proof.
  intros Hv Hb Hth H. destruct (al_grid _ _ _ _ _ _ _ AL) as (G1 & G2).
  pose proof (al_end _ _ _ _ _ _ _ AL) as F. destruct E_facts as (E1 & E2 & E3 & E5).
  destruct (al_dir _ _ _ _ _ _ _ AL) as (D1 & D2 & D3).
  destruct (Rtotal_order rho 0) as [Hr|[Hr|Hr]].
  - specialize (D2 Hr). assert (th * rho <= s * rho) by (apply Rmult_neg_r; lra).
    destruct (F (v + 1)%Z ltac:(lia)) as (_ & F2). specialize (F2 ltac:(lia)). rewrite plus_IZR in F2. lra.
  - rewrite Hr in *. lra.
  - specialize (D1 Hr). assert (s * rho <= th * rho) by (apply Rmult_le_compat_r; lra).
    destruct (F v ltac:(lia)) as (F1 & _). specialize (F1 ltac:(lia)). lra.
Qed.

Lemma last_near : (0 <= fi < na)%Z -> IZR fi * V - E <= val o + s * rho <= (IZR fi + 1) * V + E.
Proof.
  intros Hv. destruct (al_grid _ _ _ _ _ _ _ AL) as (G1 & G2).
  pose proof (al_end _ _ _ _ _ _ _ AL) as F. destruct E_facts as (E1 & E2 & E3 & E5).
  destruct (F fi ltac:(lia)) as (F1 & _). specialize (F1 ltac:(lia)).
  destruct (F (fi + 1)%Z ltac:(lia)) as (_ & F2). specialize (F2 ltac:(lia)). rewrite plus_IZR in F2. lra.
Qed.

Lemma last_deep v : (0 <= v < na)%Z -> deep (val o + s * rho) v -> v = fi.
Proof.
  intros Hv (D1 & D2). destruct (al_grid _ _ _ _ _ _ _ AL) as (G1 & G2).
  pose proof (al_end _ _ _ _ _ _ _ AL) as F. destruct E_facts as (E1 & E2 & E3 & E5).
  destruct (F v ltac:(lia)) as (_ & F1). destruct (F (v + 1)%Z ltac:(lia)) as (F2 & _). rewrite plus_IZR in F2.
  destruct (Ztrichotomy v fi) as [Q|[Q|Q]]; [|exact Q|].
  - specialize (F2 ltac:(lia)). lra.
  - specialize (F1 ltac:(lia)). lra.
Qed.
End Axis.

(** ** The walk *)

(** [a] is no later than [b]. *)
Definition tle (a b : rT A) : Prop := b = r_inf A \/ (fin a = true /\ fin b = true /\ val a <= val b).
Definition is_t (t : rT A) : Prop := fin t = true \/ t = r_inf A.

Lemma leb_tle a b : is_t a -> is_t b -> r_leb A a b = true -> tle a b.
Proof.
  intros Ha [Hb|Hb] H; [|now left]. destruct Ha as [Ha| ->].
  - right. rewrite (rr_leb _ _ _ _ _ _ _ RR) in H by assumption. repeat split; try assumption.
    destruct (Rle_bool_spec (val a) (val b)); [assumption|easy].
  - destruct (rr_leb_inf _ _ _ _ _ _ _ RR _ Hb) as (_ & H2). congruence.
Qed.

Lemma leb_false a b : is_t a -> is_t b -> r_leb A a b = false ->
  fin b = true /\ (fin a = true -> val b < val a) \/ (a = r_inf A /\ b = r_inf A).
Proof.
  intros Ha Hb H. destruct Hb as [Hb| ->].
  - left. split; [exact Hb|]. intros Fa. rewrite (rr_leb _ _ _ _ _ _ _ RR) in H by assumption.
    destruct (Rle_bool_spec (val a) (val b)); [easy|assumption].
  - destruct Ha as [Ha| ->]; [|now right]. destruct (rr_leb_inf _ _ _ _ _ _ _ RR _ Ha) as (H2 & _). congruence.
Qed.

Lemma third_time a b c : is_t a -> is_t b -> is_t c ->
  r_leb A a b && r_leb A a c = false -> r_leb A b a && r_leb A b c = false -> tle c a /\ tle c b.
Proof.
  intros Ha Hb Hc H1 H2.
  assert (Q : forall x y, is_t x -> is_t y -> r_leb A x y = true \/
              (fin y = true /\ (fin x = true -> val y < val x) /\ r_leb A x y = false) \/ (x = r_inf A /\ y = r_inf A)).
  { intros x y Hx Hy. destruct (r_leb A x y) eqn:Ex; [now left|right]. destruct (leb_false x y Hx Hy Ex) as [(H3 & H4)|H3]; auto. }
  destruct Hc as [Fc| ->].
  - destruct Ha as [Fa|Ia], Hb as [Fb|Ib].
    + rewrite !(rr_leb _ _ _ _ _ _ _ RR) in H1, H2 by assumption.
      assert (val c <= val a /\ val c <= val b).
      { destruct (Rle_bool_spec (val a) (val b)), (Rle_bool_spec (val a) (val c)), (Rle_bool_spec (val b) (val a)),
          (Rle_bool_spec (val b) (val c)); cbn in H1, H2; try easy; lra. }
      split; right; repeat split; try assumption; lra.
    + split; [|now left]. subst b. destruct (rr_leb_inf _ _ _ _ _ _ _ RR _ Fa) as (H3 & _). rewrite H3 in H1. cbn in H1.
      rewrite (rr_leb _ _ _ _ _ _ _ RR) in H1 by assumption. destruct (Rle_bool_spec (val a) (val c)); [easy|].
      right. repeat split; try assumption; lra.
    + split; [now left|]. subst a. destruct (rr_leb_inf _ _ _ _ _ _ _ RR _ Fb) as (H3 & _). rewrite H3 in H2. cbn in H2.
      rewrite (rr_leb _ _ _ _ _ _ _ RR) in H2 by assumption. destruct (Rle_bool_spec (val b) (val c)); [easy|].
      right. repeat split; try assumption; lra.
    + split; now left.
  - destruct Ha as [Fa|Ia], Hb as [Fb|Ib]; [exfalso|exfalso|exfalso|split; now left].
    + rewrite (proj1 (rr_leb_inf _ _ _ _ _ _ _ RR _ Fa)) in H1. rewrite (proj1 (rr_leb_inf _ _ _ _ _ _ _ RR _ Fb)) in H2.
      rewrite !(rr_leb _ _ _ _ _ _ _ RR) in H1, H2 by assumption. rewrite andb_true_r in H1, H2.
      destruct (Rle_bool_spec (val a) (val b)), (Rle_bool_spec (val b) (val a)); try easy; lra.
    + subst b. rewrite (proj1 (rr_leb_inf _ _ _ _ _ _ _ RR _ Fa)) in H1. easy.
    + subst a. rewrite (proj1 (rr_leb_inf _ _ _ _ _ _ _ RR _ Fb)) in H2. easy.
Qed.

Lemma tle_refl a : is_t a -> tle a a.
Proof. intros [H|H]; [right|left; exact H]. repeat split; try assumption; lra. Qed.

Section Walk.
Variables (o r : vec A) (rho : pt) (si fi : idx) (s : R).
Hypothesis ALx : axis_line (vx A o) (vx A r) (px rho) (ix si) (ix fi) (rg_nx A g) s.
Hypothesis ALy : axis_line (vy A o) (vy A r) (py rho) (iy si) (iy fi) (rg_ny A g) s.
Hypothesis ALz : axis_line (vz A o) (vz A r) (pz rho) (iz si) (iz fi) (rg_nz A g) s.

Notation step := (step_of (ix fi - ix si), step_of (iy fi - iy si), step_of (iz fi - iz si)).

Definition line (th : R) : pt :=
  (val (vx A o) + th * px rho, val (vy A o) + th * py rho, val (vz A o) + th * pz rho).

Definition wok (cur : idx) (tau : R) (tx ty tz : rT A) : Prop :=
  axis_ok (vx A o) (vx A r) (px rho) (ix si) (ix fi) (ix cur) tau tx /\
  axis_ok (vy A o) (vy A r) (py rho) (iy si) (iy fi) (iy cur) tau ty /\
  axis_ok (vz A o) (vz A r) (pz rho) (iz si) (iz fi) (iz cur) tau tz.

Definition wgood (tau : R) (path : list idx) : Prop :=
  (forall v, In v path -> exists th, tau <= th /\ near_voxel V E v (line th)) /\
  (forall th v, tau <= th <= s -> in_grid A g v = true -> deep_in_voxel V E v (line th) -> In v path \/ v = fi).

Lemma grid_axes v : in_grid A g v = true ->
  (0 <= ix v < rg_nx A g)%Z /\ (0 <= iy v < rg_ny A g)%Z /\ (0 <= iz v < rg_nz A g)%Z.
Proof. clear. unfold in_grid, in_bounds3. lia. Qed.

Lemma idx_ext (a b : idx) : ix a = ix b -> iy a = iy b -> iz a = iz b -> a = b.
Proof. clear. destruct a as [[a1 a2] a3], b as [[b1 b2] b3]. cbn. now intros -> -> ->. Qed.

(** Locations up to the next crossing are near the current voxel. *)
Lemma wok_near cur tau th tx ty tz t : wok cur tau tx ty tz -> in_grid A g cur = true -> tau <= th ->
  tle t tx -> tle t ty -> tle t tz -> (t = r_inf A \/ th <= val t) -> near_voxel V E cur (line th).
Proof.
  intros (Hx & Hy & Hz) Hg Hth Tx Ty Tz Ht. destruct (grid_axes _ Hg) as (G1 & G2 & G3).
  assert (Q : forall t', tle t t' -> t' = r_inf A \/ th <= val t').
  { intros t' [H|(H1 & H2 & H3)]; [now left|right]. destruct Ht as [->|Ht]; [destruct (inf_not_fin H1)|lra]. }
  split; [|split]; cbn [line px py pz fst snd].
  - eapply ax_near; eauto.
  - eapply ax_near; eauto.
  - eapply ax_near; eauto.
Qed.

Lemma near_deep_voxel c v q : near_voxel V E c q -> deep_in_voxel V E v q -> v = c.
Proof.
  intros (N1 & N2 & N3) (D1 & D2 & D3). apply idx_ext; eapply near_deep; eauto.
Qed.

(** Later locations that are deep in another voxel come after the crossing. *)
Lemma wok_later cur tau th tx ty tz t v : wok cur tau tx ty tz -> in_grid A g cur = true -> tau <= th ->
  is_t t -> tle t tx -> tle t ty -> tle t tz -> deep_in_voxel V E v (line th) ->
  v = cur \/ (fin t = true /\ val t <= th).
Proof.
  intros H Hg Hth It Tx Ty Tz D. destruct It as [Ft| ->].
  - destruct (Rle_or_lt (val t) th) as [Q|Q]; [now right|left].
    eapply near_deep_voxel; [eapply wok_near; eauto; right; lra|exact D].
  - left. eapply near_deep_voxel; [eapply (wok_near cur tau th tx ty tz (r_inf A)); eauto|exact D].
Qed.

Lemma wok_cur cur tau tx ty tz t : wok cur tau tx ty tz -> in_grid A g cur = true ->
  is_t t -> tle t tx -> tle t ty -> tle t tz -> (fin t = true -> tau <= val t) -> near_voxel V E cur (line tau).
Proof.
  intros H Hg It Tx Ty Tz Ht. eapply wok_near; eauto; [lra|]. destruct It as [Ft| ->]; [right; auto|now left].
Qed.

Lemma ok_le o' r' q i j c tau t : axis_ok o' r' q i j c tau t -> fin t = true -> tau <= val t.
Proof.
  intros [(_ & _ & _ & _ & Q)|[(_ & _ & _ & _ & Q)|[(_ & _ & _ & _ & Q & _)|(_ & _ & _ & _ & Q & _)]]] Ft; try exact Q.
  rewrite Q in Ft. destruct (inf_not_fin Ft).
Qed.

(** The walk stops in [cur] because the axis with the next crossing is at its end. *)
Lemma wgood_stop cur tau tx ty tz t : wok cur tau tx ty tz -> in_grid A g cur = true ->
  is_t t -> tle t tx -> tle t ty -> tle t tz ->
  (t = tx /\ ix cur = ix fi \/ t = ty /\ iy cur = iy fi \/ t = tz /\ iz cur = iz fi) -> wgood tau [cur].
Proof.
  intros H Hg It Tx Ty Tz Hs. pose proof H as (Hx & Hy & Hz). destruct (grid_axes _ Hg) as (G1 & G2 & G3). split.
  - intros v [<-|[]]. exists tau. split; [lra|]. eapply wok_cur; eauto.
    intros Ft. destruct Hs as [(-> & _)|[(-> & _)|(-> & _)]]; eapply ok_le; eauto.
  - intros th v Hth Hv D. destruct (wok_later cur tau th tx ty tz t v H Hg (proj1 Hth) It Tx Ty Tz D) as [Q|(Ft & Q)].
    + left. left. symmetry. exact Q.
    + exfalso. destruct (grid_axes _ Hv) as (V1 & V2 & V3). destruct D as (D1 & D2 & D3).
      destruct Hs as [(-> & Hc)|[(-> & Hc)|(-> & Hc)]].
      * exact (ax_stop _ _ _ _ _ _ _ ALx _ _ _ th _ Hx Hc G1 V1 Ft (conj Q (proj2 Hth)) D1).
      * exact (ax_stop _ _ _ _ _ _ _ ALy _ _ _ th _ Hy Hc G2 V2 Ft (conj Q (proj2 Hth)) D2).
      * exact (ax_stop _ _ _ _ _ _ _ ALz _ _ _ th _ Hz Hc G3 V3 Ft (conj Q (proj2 Hth)) D3).
Qed.

Lemma wgood_cons cur tau tx ty tz t path : wok cur tau tx ty tz -> in_grid A g cur = true ->
  fin t = true -> tle t tx -> tle t ty -> tle t tz -> tau <= val t -> wgood (val t) path -> wgood tau (cur :: path).
Proof.
  intros H Hg Ft Tx Ty Tz Ht (W1 & W2). split.
  - intros v [<-|Hv].
    + exists tau. split; [lra|]. eapply wok_cur; eauto. now left.
    + destruct (W1 v Hv) as (th & Hth & Hn). exists th. split; [lra|exact Hn].
  - intros th v Hth Hv D. destruct (wok_later cur tau th tx ty tz t v H Hg (proj1 Hth) (or_introl Ft) Tx Ty Tz D) as [Q|(_ & Q)].
    + left. left. now symmetry.
    + destruct (W2 th v (conj Q (proj2 Hth)) Hv D) as [I|I]; [left; now right|now right].
Qed.

Lemma tle_stay (o' r' : rT A) q i j c tau t t' : axis_ok o' r' q i j c tau t' -> fin t = true -> tau <= val t -> tle t t' ->
  axis_ok o' r' q i j c (val t) t'.
Proof.
  intros H Ft Ht [Q|(_ & _ & Q)]; eapply ax_stay; eauto.
Qed.

Lemma walk_round fuel : forall cur tau tx ty tz path, wok cur tau tx ty tz ->
  walk A g fuel r step fi cur tx ty tz = Some path -> wgood tau path.
Proof.
  induction fuel as [|fuel IH]; intros cur tau tx ty tz path H Hw; [easy|].
  cbn [walk] in Hw. destruct (idx_eqb cur fi) eqn:Ec.
  { apply idx_eqb_eq in Ec. injection Hw as <-. split; [easy|]. intros th v Hth Hv (D1 & D2 & D3). right.
    destruct (grid_axes _ Hv) as (V1 & V2 & V3). destruct H as (Hx & Hy & Hz). subst cur.
    apply idx_ext.
    - exact (ax_last _ _ _ _ _ _ _ ALx _ _ _ th _ Hx eq_refl V1 Hth D1).
    - exact (ax_last _ _ _ _ _ _ _ ALy _ _ _ th _ Hy eq_refl V2 Hth D2).
    - exact (ax_last _ _ _ _ _ _ _ ALz _ _ _ th _ Hz eq_refl V3 Hth D3). }
  destruct (in_grid A g cur) eqn:Eg.
  2:{ injection Hw as <-. split; [easy|]. intros th v Hth Hv (D1 & D2 & D3). exfalso.
      destruct (grid_axes _ Hv) as (V1 & V2 & V3). destruct H as (Hx & Hy & Hz).
      assert (Hc : ~ (0 <= ix cur < rg_nx A g)%Z \/ ~ (0 <= iy cur < rg_ny A g)%Z \/ ~ (0 <= iz cur < rg_nz A g)%Z)
        by (clear - Eg; unfold in_grid, in_bounds3 in Eg; lia).
      destruct Hc as [Hc|[Hc|Hc]].
      - exact (ax_out _ _ _ _ _ _ _ ALx _ _ _ th _ Hx Hc V1 (proj1 Hth) D1).
      - exact (ax_out _ _ _ _ _ _ _ ALy _ _ _ th _ Hy Hc V2 (proj1 Hth) D2).
      - exact (ax_out _ _ _ _ _ _ _ ALz _ _ _ th _ Hz Hc V3 (proj1 Hth) D3). }
  destruct (grid_axes _ Eg) as (G1 & G2 & G3). pose proof H as (Hx & Hy & Hz).
  pose proof (ax_time _ _ _ _ _ _ _ _ Hx : is_t tx) as Tx. pose proof (ax_time _ _ _ _ _ _ _ _ Hy : is_t ty) as Ty.
  pose proof (ax_time _ _ _ _ _ _ _ _ Hz : is_t tz) as Tz.
  destruct (r_leb A tx ty && r_leb A tx tz) eqn:B1.
  { apply andb_true_iff in B1. destruct B1 as [L1 L2]. apply leb_tle in L1, L2; try assumption.
    pose proof (tle_refl tx Tx) as L0. destruct (Z.eqb_spec (ix cur) (ix fi)) as [Ex|Ex].
    - cbn [obind] in Hw. injection Hw as <-. eapply (wgood_stop cur tau tx ty tz tx); eauto.
    - destruct (walk A g fuel r step fi _ _ _ _) as [rest|] eqn:Ew in Hw; [|easy]. cbn [obind] in Hw. injection Hw as <-.
      destruct (ax_cross _ _ _ _ _ _ _ ALx _ _ _ Hx G1 Ex) as (Ft & Ht & Hn).
      eapply (wgood_cons cur tau tx ty tz tx); eauto. eapply IH; [|exact Ew].
      split; [exact Hn|]. split; eapply tle_stay; eauto. }
  destruct (r_leb A ty tx && r_leb A ty tz) eqn:B2.
  { apply andb_true_iff in B2. destruct B2 as [L1 L2]. apply leb_tle in L1, L2; try assumption.
    pose proof (tle_refl ty Ty) as L0. destruct (Z.eqb_spec (iy cur) (iy fi)) as [Ex|Ex].
    - cbn [obind] in Hw. injection Hw as <-. eapply (wgood_stop cur tau tx ty tz ty); eauto.
    - destruct (walk A g fuel r step fi _ _ _ _) as [rest|] eqn:Ew in Hw; [|easy]. cbn [obind] in Hw. injection Hw as <-.
      destruct (ax_cross _ _ _ _ _ _ _ ALy _ _ _ Hy G2 Ex) as (Ft & Ht & Hn).
      eapply (wgood_cons cur tau tx ty tz ty); eauto. eapply IH; [|exact Ew].
      split; [eapply tle_stay; eauto|]. split; [exact Hn|]. eapply tle_stay; eauto. }
  destruct (third_time tx ty tz Tx Ty Tz B1 B2) as (L1 & L2). pose proof (tle_refl tz Tz) as L0.
  destruct (Z.eqb_spec (iz cur) (iz fi)) as [Ex|Ex].
  - cbn [obind] in Hw. injection Hw as <-. eapply (wgood_stop cur tau tx ty tz tz); eauto.
  - destruct (walk A g fuel r step fi _ _ _ _) as [rest|] eqn:Ew in Hw; [|easy]. cbn [obind] in Hw. injection Hw as <-.
    destruct (ax_cross _ _ _ _ _ _ _ ALz _ _ _ Hz G3 Ex) as (Ft & Ht & Hn).
    eapply (wgood_cons cur tau tx ty tz tz); eauto. eapply IH; [|exact Ew].
    split; [eapply tle_stay; eauto|]. split; [eapply tle_stay; eauto|exact Hn].
Qed.

Lemma walk_round_init fuel path :
  walk A g fuel r step fi si (first_t A g (vx A o) (vx A r) (ix si)) (first_t A g (vy A o) (vy A r) (iy si))
    (first_t A g (vz A o) (vz A r) (iz si)) = Some path -> wgood 0 path.
Proof.
  intros Hw. eapply walk_round; [|exact Hw]. split; [|split]; eapply ax_init; eauto.
Qed.

(** Visited voxels are near the segment, not only near the line. *)
Lemma near_segment v : in_grid A g v = true -> in_index_box si fi v ->
  (exists th, 0 <= th /\ near_voxel V E v (line th)) -> exists th, 0 <= th <= s /\ near_voxel V E v (line th).
Proof.
  intros Hg (B1 & B2 & B3) (th & Hth & N1 & N2 & N3). destruct (grid_axes _ Hg) as (G1 & G2 & G3).
  destruct (Rle_or_lt th s) as [Q|Q]; [exists th; split; [lra|]; split; [exact N1|]; split; [exact N2|exact N3]|].
  exists s. pose proof (al_s _ _ _ _ _ _ _ ALx). split; [lra|]. split; [|split].
  - exact (end_near _ _ _ _ _ _ _ ALx _ th G1 B1 (Rlt_le _ _ Q) N1).
  - exact (end_near _ _ _ _ _ _ _ ALy _ th G2 B2 (Rlt_le _ _ Q) N2).
  - exact (end_near _ _ _ _ _ _ _ ALz _ th G3 B3 (Rlt_le _ _ Q) N3).
Qed.

Lemma near_end : in_grid A g fi = true -> near_voxel V E fi (line s).
Proof.
  intros Hg. destruct (grid_axes _ Hg) as (G1 & G2 & G3). split; [|split].
  - exact (last_near _ _ _ _ _ _ _ ALx G1).
  - exact (last_near _ _ _ _ _ _ _ ALy G2).
  - exact (last_near _ _ _ _ _ _ _ ALz G3).
Qed.
End Walk.
End Slack.

(** ** The whole ray *)

Notation E := (n * (n + 64) * u * V + 0).

Lemma inv_pos : 0 < inv.
Proof.
  destruct HV as (_ & Vp), Hinv as (_ & H). destruct nu_small as (NU & US & NP). apply Rabs_le_inv in H.
  destruct (Rle_or_lt inv 0) as [Q|Q]; [exfalso|exact Q]. assert (inv * V <= 0 * V) by (apply Rmult_le_compat_r; lra). lra.
Qed.

(** Floors of locations with bounded coordinates are the mathematical ones. *)
Lemma scaled_bound x : Rabs x <= 4 * K * V -> Rabs (x * inv) <= 5 * K.
Proof.
  intros Hx. pose proof inv_pos as Ip. destruct HV as (_ & Vp), Hinv as (_ & H), HK as (K1 & K2 & K3).
  destruct nu_small as (NU & US & NP). apply Rabs_le_inv in H.
  rewrite Rabs_mult, (Rabs_pos_eq inv) by lra. apply Rle_trans with (4 * K * V * inv); [apply Rmult_le_compat_r; lra|].
  replace (4 * K * V * inv) with (K * (4 * (inv * V))) by ring. rewrite (Rmult_comm 5). apply Rmult_le_compat_l; lra.
Qed.

Lemma floor_val x : fin x = true -> Rabs (val x) <= 4 * K * V ->
  r_floor A (r_mul A x (rg_inv A g)) = Zfloor (val (r_mul A x (rg_inv A g))).
Proof.
  intros Fx Hx. pose proof (scaled_bound _ Hx) as B. destruct Hinv as (FI & _), HK as (K1 & K2 & K3), HM as (M1 & _), Heta as (E0 & E1 & _).
  destruct nu_small as (NU & US & NP).
  destruct (rr_mul _ _ _ _ _ _ _ RR x (rg_inv A g) Fx FI) as (Fw & Dw & _); [lra|].
  apply (rr_floor _ _ _ _ _ _ _ RR _ Fw).
  assert (u * Rabs (val x * inv) <= / 129 * Rabs (val x * inv)) by (apply Rmult_le_compat_r; [apply Rabs_pos|lra]).
  replace (val (r_mul A x (rg_inv A g))) with ((val (r_mul A x (rg_inv A g)) - val x * inv) + val x * inv) by ring.
  eapply Rle_trans; [apply Rabs_triang|]. lra.
Qed.

Lemma floor_mono x y : fin x = true -> fin y = true -> Rabs (val x) <= 4 * K * V -> Rabs (val y) <= 4 * K * V ->
  val x <= val y -> (r_floor A (r_mul A x (rg_inv A g)) <= r_floor A (r_mul A y (rg_inv A g)))%Z.
Proof.
  intros Fx Fy Hx Hy H. rewrite !floor_val by assumption. apply Zfloor_le.
  pose proof (scaled_bound _ Hx) as Bx. pose proof (scaled_bound _ Hy) as By. pose proof inv_pos as Ip.
  destruct Hinv as (FI & _), HK as (K1 & K2 & K3), HM as (M1 & _).
  apply (rr_mul_mono _ _ _ _ _ _ _ RR); try assumption; try lra. apply Rmult_le_compat_r; lra.
Qed.

Lemma floor_eq x y : fin x = true -> fin y = true -> Rabs (val x) <= 4 * K * V -> Rabs (val y) <= 4 * K * V ->
  val x = val y -> r_floor A (r_mul A x (rg_inv A g)) = r_floor A (r_mul A y (rg_inv A g)).
Proof. intros. apply Z.le_antisymm; apply floor_mono; try assumption; lra. Qed.

Lemma diff_val x y : fin x = true -> fin y = true -> Rabs (val x) <= K * V -> Rabs (val y) <= K * V ->
  let d := val y - val x in let r := r_sub A y x in
  fin r = true /\ Rabs (val r - d) <= u * Rabs d /\ Rabs d <= 2 * K * V /\
  Rabs (val r) <= 2 * Rabs d /\ Rabs d <= 2 * Rabs (val r) /\
  (0 < val r -> 0 < d) /\ (val r < 0 -> d < 0) /\ (val r = 0 -> d = 0).
Proof.
  intros Fx Fy Hx Hy d r. destruct HV as (_ & Vp), HK as (K1 & K2 & K3), HM as (M1 & M2 & _). destruct nu_small as (NU & US & NP).
  assert (Kv : 0 < K * V) by (apply Rmult_lt_0_compat; lra).
  assert (Ld : 16 * (K * V) <= L * V) by (rewrite <- Rmult_assoc; apply Rmult_le_compat_r; lra).
  apply Rabs_le_inv in Hx, Hy. assert (Hd : Rabs d <= 2 * K * V) by (unfold d; apply Rabs_le; lra).
  destruct (rr_sub _ _ _ _ _ _ _ RR y x Fy Fx) as (Fr & Dr); [fold d; lra|]. fold r d in Fr, Dr.
  assert (U : u * Rabs d <= / 129 * Rabs d) by (apply Rmult_le_compat_r; [apply Rabs_pos|lra]).
  split; [exact Fr|]. split; [exact Dr|]. split; [exact Hd|]. pose proof Dr as Dr'. apply Rabs_le_inv in Dr'.
  unfold Rabs in U, Dr' |- *. destruct (Rcase_abs d), (Rcase_abs (val r)); repeat split; lra.
Qed.

(** Where the computed end of the ray is on one axis. *)
Lemma axis_final (x y q : rT A) clip : fin x = true -> fin y = true -> Rabs (val x) <= K * V -> Rabs (val y) <= K * V ->
  Rabs (val x) <= (n + / 2) * V -> (clip = true -> fin q = true /\ 0 <= val q <= 1) ->
  let r := r_sub A y x in
  let pf := if clip then r_add A x (r_mul A r q) else y in
  let s := if clip then val q else 1 in
  fin pf = true /\ Rabs (val pf) <= 4 * K * V /\
  Rabs (val pf - (val x + s * val r)) <= 4 * u * (Rabs (val x + s * val r) + (n + 1) * V) /\
  (0 < val r -> val x <= val pf) /\ (val r < 0 -> val pf <= val x) /\ (val r = 0 -> val pf = val x).
Proof.
  intros Fx Fy Hx Hy Hx2 Hq r pf s. destruct (diff_val x y Fx Fy Hx Hy) as (Fr & Dr & Dd & R1 & R2 & S1 & S2 & S3).
  fold r in Fr, Dr, R1, R2, S1, S2, S3. set (d := val y - val x) in *.
  destruct HV as (_ & Vp), HK as (K1 & K2 & K3), HM as (M1 & M2 & _), Heta as (E0 & E1 & E2 & E3). destruct nu_small as (NU & US & NP).
  pose proof n_ge1 as N1.
  assert (Kv : 0 < K * V) by (apply Rmult_lt_0_compat; lra).
  assert (Ld : 16 * (K * V) <= L * V) by (rewrite <- Rmult_assoc; apply Rmult_le_compat_r; lra).
  assert (UV : 0 < u * V) by (apply Rmult_lt_0_compat; lra).
  assert (UV2 : u * V <= / 129 * V) by (apply Rmult_le_compat_r; lra).
  assert (VK : V <= K * V) by (rewrite <- (Rmult_1_l V) at 1; apply Rmult_le_compat_r; lra).
  destruct clip.
  - destruct (Hq eq_refl) as (Fq & Q). set (w := r_mul A r q) in *. set (rq := val r * val q).
    assert (Brq : Rabs rq <= Rabs (val r)).
    { unfold rq. rewrite Rabs_mult, (Rabs_pos_eq (val q)) by lra. rewrite <- (Rmult_1_r (Rabs (val r))) at 2.
      apply Rmult_le_compat_l; [apply Rabs_pos|lra]. }
    destruct (rr_mul _ _ _ _ _ _ _ RR r q Fr Fq) as (Fw & Dw & W1 & W2); [fold rq; lra|]. fold rq w in Fw, Dw, W1, W2.
    assert (Es : val x + s * val r = val x + rq) by (unfold s, rq; ring). rewrite Es. clear Es.
    assert (Ur : u * Rabs rq <= / 129 * Rabs rq) by (apply Rmult_le_compat_r; [apply Rabs_pos|lra]).
    assert (Bw : Rabs (val w) <= 5 * (K * V)).
    { replace (val w) with ((val w - rq) + rq) by ring. eapply Rle_trans; [apply Rabs_triang|]. lra. }
    assert (Bs : Rabs (val x + val w) <= 6 * (K * V)) by (eapply Rle_trans; [apply Rabs_triang|lra]).
    destruct (rr_add _ _ _ _ _ _ _ RR x w Fx Fw) as (Fp & Dp & P1 & P2); [lra|]. fold pf in Fp, Dp, P1, P2.
    set (x1 := val x + rq) in *.
    assert (B1 : Rabs rq <= Rabs x1 + Rabs (val x)).
    { replace rq with (x1 + - val x) by (unfold x1; ring). eapply Rle_trans; [apply Rabs_triang|]. rewrite Rabs_Ropp. lra. }
    assert (B2 : Rabs (val x + val w) <= Rabs x1 + (u * Rabs rq + eta)).
    { replace (val x + val w) with (x1 + (val w - rq)) by (unfold x1; ring). eapply Rle_trans; [apply Rabs_triang|]. lra. }
    assert (X1 : 0 <= Rabs x1) by apply Rabs_pos.
    assert (U1 : u * Rabs rq <= u * (Rabs x1 + (n + / 2) * V)) by (apply Rmult_le_compat_l; lra).
    assert (U2 : u * Rabs (val x + val w) <= u * (Rabs x1 + (u * Rabs rq + eta))) by (apply Rmult_le_compat_l; lra).
    assert (U3 : u * (u * Rabs rq + eta) <= / 129 * (u * Rabs rq + eta)).
    { apply Rmult_le_compat_r; [|lra]. assert (0 <= u * Rabs rq) by (apply Rmult_le_pos; [lra|apply Rabs_pos]). lra. }
    assert (UX : 0 <= u * Rabs x1) by (apply Rmult_le_pos; lra).
    assert (NUV0 : 0 <= u * (n * V)) by (apply Rmult_le_pos; [lra|apply Rmult_le_pos; lra]).
    assert (Dt : Rabs (val pf - x1) <= 4 * u * (Rabs x1 + (n + 1) * V)).
    { replace (val pf - x1) with ((val pf - (val x + val w)) + (val w - rq)) by (unfold x1; ring).
      eapply Rle_trans; [apply Rabs_triang|]. lra. }
    split; [exact Fp|]. split; [|split; [exact Dt|]].
    { assert (Bx : Rabs x1 <= 7 / 2 * (K * V)).
      { unfold x1. destruct Q as (Q0 & Q1). replace (val x + rq) with ((1 - val q) * val x + val q * (val x + val r)) by (unfold rq; ring).
        assert (T1 : Rabs (val x + val r) <= 5 / 4 * (K * V)).
        { replace (val x + val r) with (val y + (val r - d)) by (unfold d; ring). eapply Rle_trans; [apply Rabs_triang|].
          assert (u * Rabs d <= / 129 * Rabs d) by (apply Rmult_le_compat_r; [apply Rabs_pos|lra]). lra. }
        eapply Rle_trans; [apply Rabs_triang|]. rewrite !Rabs_mult, (Rabs_pos_eq (1 - val q)), (Rabs_pos_eq (val q)) by lra.
        assert (T2 : (1 - val q) * Rabs (val x) <= 1 * (K * V)) by (apply Rmult_le_compat; try lra; apply Rabs_pos).
        assert (T3 : val q * Rabs (val x + val r) <= 1 * (5 / 4 * (K * V))) by (apply Rmult_le_compat; try lra; apply Rabs_pos). lra. }
      assert (Bx2 : u * Rabs x1 <= / 129 * Rabs x1) by (apply Rmult_le_compat_r; lra).
      assert (NKV : u * (n * V) <= / 129 * V).
      { replace (u * (n * V)) with (n * u * V) by ring. apply Rmult_le_compat_r; lra. }
      replace (val pf) with ((val pf - x1) + x1) by ring. eapply Rle_trans; [apply Rabs_triang|]. lra. }
    assert (Sq : forall a b c : R, 0 <= a -> b <= c -> b * a <= c * a) by (intros; apply Rmult_le_compat_r; assumption).
    split; [|split]; intros Hr.
    + apply P1, W1. unfold rq. apply Rmult_le_pos; lra.
    + apply P2, W2. unfold rq. rewrite <- (Rmult_0_l (val q)). apply Rmult_le_compat_r; lra.
    + assert (rq = 0) by (unfold rq; rewrite Hr; ring). apply Rle_antisym; [apply P2, W2|apply P1, W1]; lra.
  - subst pf s. rewrite Rmult_1_l. split; [exact Fy|]. split; [lra|]. split.
    { replace (val y - (val x + val r)) with (- (val r - d)) by (unfold d; ring). rewrite Rabs_Ropp.
      assert (B1 : Rabs (val r) <= Rabs (val x + val r) + Rabs (val x)).
      { replace (val r) with ((val x + val r) + - val x) at 1 by ring. eapply Rle_trans; [apply Rabs_triang|]. rewrite Rabs_Ropp. lra. }
      assert (u * Rabs d <= u * (2 * (Rabs (val x + val r) + (n + / 2) * V))) by (apply Rmult_le_compat_l; lra).
      assert (0 <= u * Rabs (val x + val r)) by (apply Rmult_le_pos; [lra|apply Rabs_pos]).
      assert (NUV0 : 0 <= u * (n * V)) by (apply Rmult_le_pos; [lra|apply Rmult_le_pos; lra]). lra. }
    unfold d in S1, S2, S3. split; [|split]; intros Hr; [specialize (S1 Hr)|specialize (S2 Hr)|specialize (S3 Hr)]; lra.
Qed.

Lemma axis_line_intro (x y q : rT A) clip na si fi s : fin x = true -> fin y = true -> Rabs (val x) <= K * V -> Rabs (val y) <= K * V ->
  not_tiny (2 * lam * V) (val y - val x) -> (clip = true -> fin q = true /\ 0 <= val q <= 1) ->
  s = (if clip then val q else 1) ->
  si = r_floor A (r_mul A x (rg_inv A g)) ->
  fi = r_floor A (r_mul A (if clip then r_add A x (r_mul A (r_sub A y x) q) else y) (rg_inv A g)) ->
  (0 <= si < na)%Z -> (na <= N)%Z -> axis_line 0 x (r_sub A y x) (val (r_sub A y x)) si fi na s.
Proof.
  intros Fx Fy Hx Hy Ht Hq -> -> -> Hg Hn.
  destruct HV as (_ & Vp), HK as (K1 & K2 & K3), HM as (M1 & M2 & M3 & Lp). destruct nu_small as (NU & US & NP). pose proof n_ge1 as N1.
  assert (Kv : 0 < K * V) by (apply Rmult_lt_0_compat; lra).
  assert (Ld : 16 * (K * V) <= L * V) by (rewrite <- Rmult_assoc; apply Rmult_le_compat_r; lra).
  assert (Hs : index_ok (8 * n * u * V) (val x) (r_floor A (r_mul A x (rg_inv A g)))) by (apply index_near; [exact Fx|lra]).
  destruct (diff_val x y Fx Fy Hx Hy) as (Fr & Dr & Dd & R1 & R2 & S1 & S2 & S3).
  assert (Hx2 : Rabs (val x) <= (n + / 2) * V).
  { set (i := r_floor A (r_mul A x (rg_inv A g))) in *. destruct (Hs 0%Z ltac:(lia)) as (P1 & _). specialize (P1 ltac:(lia)).
    destruct (Hs N ltac:(lia)) as (_ & P2). specialize (P2 ltac:(lia)).
    assert (NUV2 : n * u * V <= / 129 * V) by (apply Rmult_le_compat_r; lra).
    assert (0 <= n * V) by (apply Rmult_le_pos; lra). apply Rabs_le. lra. }
  destruct (axis_final x y q clip Fx Fy Hx Hy Hx2 Hq) as (Ff & Bf & Df & F1 & F2 & F3).
  set (pf := if clip then r_add A x (r_mul A (r_sub A y x) q) else y) in *.
  assert (Hp : index_ok (8 * n * u * V) (val pf) (r_floor A (r_mul A pf (rg_inv A g)))) by (apply index_near; assumption).
  assert (Hx4 : Rabs (val x) <= 4 * K * V) by lra.
  split.
  - split; assumption.
  - exact Hs.
  - split; assumption.
  - rewrite Rplus_0_r. eapply index_shift; [exact Hp|exact Df].
  - split; [|split]; intros Hr.
    + apply floor_mono; auto.
    + apply floor_mono; auto.
    + left. split; [exact Hr|]. apply floor_eq; auto.
  - now left.
  - destruct Ht as [Ht|Ht].
    + left. rewrite Ht, Rabs_R0 in R1. unfold Rabs in R1. destruct (Rcase_abs (val (r_sub A y x))); lra.
    + right. lra.
  - destruct clip; [apply Hq; reflexivity|lra].
Qed.

Lemma walk_error_small : n * (n + 64) * u * V <= V.
Proof.
  destruct HV as (_ & Vp). pose proof n_ge1 as N1. rewrite <- (Rmult_1_l V) at 2. apply Rmult_le_compat_r; [lra|].
  apply Rle_trans with (2 := Hsmall). rewrite !Rmult_assoc. apply Rmult_le_compat_l; [lra|]. apply Rmult_le_compat_r; lra.
Qed.

(** From the line of the computed direction to the segment between sensor and point. *)
Lemma true_near i x y t th' : fin x = true -> fin y = true -> Rabs (val x) <= K * V -> Rabs (val y) <= K * V ->
  Rabs (val x) <= (n + 1) * V -> 0 <= t <= 1 -> (0 <= i < N)%Z -> th' = val (r_sub A y x) ->
  (IZR i * V - E <= val x + t * th' <= (IZR i + 1) * V + E ->
   IZR i * V - n * (n + 128) * u * V <= val x + t * (val y - val x) <= (IZR i + 1) * V + n * (n + 128) * u * V) /\
  (IZR i * V + n * (n + 128) * u * V < val x + t * (val y - val x) < (IZR i + 1) * V - n * (n + 128) * u * V ->
   deep 0 (val x + t * th') i).
Proof.
  intros Fx Fy Hx Hy Hx2 Ht Hi ->. destruct (diff_val x y Fx Fy Hx Hy) as (Fr & Dr & Dd & R1 & R2 & _).
  destruct (E_facts 0) as (E1 & E2 & E3 & E5). destruct HV as (_ & Vp). pose proof n_ge1 as N1.
  set (d := val y - val x) in *. set (rr := val (r_sub A y x)) in *.
  assert (Hi' : 0 <= IZR i * V /\ (IZR i + 1) * V <= n * V).
  { split; [apply Rmult_le_pos; [apply IZR_le; lia|lra]|]. apply Rmult_le_compat_r; [lra|]. rewrite <- plus_IZR. apply IZR_le; lia. }
  assert (EE : n * (n + 128) * u * V = E + 64 * (n * u * V)) by ring. pose proof walk_error_small as E4.
  assert (D : Rabs (t * rr - t * d) <= u * Rabs (t * d)).
  { replace (t * rr - t * d) with (t * (rr - d)) by ring. rewrite !Rabs_mult, (Rabs_pos_eq t) by lra.
    replace (u * (t * Rabs d)) with (t * (u * Rabs d)) by ring. apply Rmult_le_compat_l; lra. }
  assert (T2 : Rabs (t * d) <= 2 * Rabs (t * rr)).
  { rewrite !Rabs_mult, (Rabs_pos_eq t) by lra. replace (2 * (t * Rabs rr)) with (t * (2 * Rabs rr)) by ring. apply Rmult_le_compat_l; lra. }
  apply Rabs_le_inv in Hx2. rewrite EE. split.
  - intros H. assert (B : Rabs (t * rr) <= (2 * n + 3) * V) by (apply Rabs_le; lra).
    assert (u * Rabs (t * d) <= u * (2 * ((2 * n + 3) * V))) by (apply Rmult_le_compat_l; lra).
    apply Rabs_le_inv in D. lra.
  - intros H. assert (B : Rabs (t * d) <= (2 * n + 3) * V) by (apply Rabs_le; lra).
    assert (u * Rabs (t * d) <= u * ((2 * n + 3) * V)) by (apply Rmult_le_compat_l; lra).
    apply Rabs_le_inv in D. split; lra.
Qed.

Lemma start_bound dl (o r : rT A) rho si fi na s : axis_line dl o r rho si fi na s -> Rabs (val o) <= (n + 1) * V.
Proof.
  intros AL. pose proof (start_near dl _ _ _ _ _ _ _ AL) as S. destruct (al_grid _ _ _ _ _ _ _ _ AL) as (Q1 & Q2).
  destruct (E_facts 0) as (E1 & E2 & E3 & E5). destruct HV as (_ & Vp). pose proof n_ge1 as N1.
  assert (0 <= IZR si * V /\ (IZR si + 1) * V <= n * V).
  { split; [apply Rmult_le_pos; [apply IZR_le; lia|lra]|]. apply Rmult_le_compat_r; [lra|]. rewrite <- plus_IZR. apply IZR_le; lia. }
  apply Rabs_le. lra.
Qed.

Lemma below (i na : Z) : (0 <= i < na)%Z -> (na <= N)%Z -> (0 <= i < N)%Z.
Proof. clear. lia. Qed.

(** A coordinate in the grid has an index of the grid. *)
Lemma end_in (q : rT A) (na : Z) : fin q = true -> Rabs (val q) <= K * V -> (na <= N)%Z ->
  n * (n + 128) * u * V <= val q <= IZR na * V - n * (n + 128) * u * V ->
  (0 <= r_floor A (r_mul A q (rg_inv A g)) < na)%Z.
Proof.
  intros F B Hn H. destruct HV as (_ & Vp), HK as (K1 & _). pose proof n_ge1 as N1.
  assert (NV : 0 < n * u * V) by (apply Rmult_lt_0_compat; [apply Rmult_lt_0_compat; lra|exact Vp]).
  assert (EV : 129 * (n * u * V) <= n * (n + 128) * u * V).
  { replace (n * (n + 128) * u * V) with ((n + 128) * (n * u * V)) by ring. apply Rmult_le_compat_r; lra. }
  assert (KV : 0 <= K * V) by (apply Rmult_le_pos; lra).
  assert (Hi := index_near q F ltac:(lra)). set (i := r_floor A (r_mul A q (rg_inv A g))) in *. clearbody i.
  assert (n0 : (0 < na)%Z) by (apply lt_IZR; apply Rmult_lt_reg_r with V; [exact Vp|lra]).
  split; apply Znot_gt_le || apply Z.nle_gt; intros G.
  - destruct (Hi 0%Z ltac:(clear - HN; lia)) as (_ & K2). specialize (K2 ltac:(clear - G; lia)). lra.
  - destruct (Hi na ltac:(clear - n0 Hn; lia)) as (K2 & _). specialize (K2 G). lra.
Qed.

(** How much of the segment is kept. *)
Definition ray_part (m : rT A) (o p : vec A) : R :=
  if is_clipped A m (ray_of A o p) then val (r_div A m (length_of A (ray_of A o p))) else 1.

Theorem cast_round (m : rT A) (o p : vec A) bs :
  (rg_nx A g <= N)%Z /\ (rg_ny A g <= N)%Z /\ (rg_nz A g <= N)%Z ->
  (forall f, f = vx A \/ f = vy A \/ f = vz A -> fin (f o) = true /\ fin (f p) = true /\
    Rabs (val (f o)) <= K * V /\ Rabs (val (f p)) <= K * V /\ not_tiny (2 * lam * V) (val (f p) - val (f o))) ->
  m = r_inf A \/ (fin m = true /\ 0 <= val m) ->
  in_grid A g (voxel_of A g o) = true ->
  cast_point A g m o (voxel_of A g o) p = Some bs ->
  let s := ray_part m o p in
  let q := along (reals A val o) (reals A val p) in
  0 <= s <= 1 /\
  (forall i b, In (i, b) bs -> in_grid A g i = true /\
    exists t, 0 <= t <= s /\ near_voxel V (n * (n + 128) * u * V) i (q t)) /\
  (forall i, In (i, true) bs -> is_clipped A m (ray_of A o p) = false /\
    near_voxel V (n * (n + 128) * u * V) i (reals A val p)) /\
  (forall t i, 0 <= t <= s -> in_grid A g i = true -> deep_in_voxel V (n * (n + 128) * u * V) i (q t) ->
    exists b, In (i, b) bs) /\
  (forall i, is_clipped A m (ray_of A o p) = false -> in_grid A g i = true ->
    deep_in_voxel V (n * (n + 128) * u * V) i (reals A val p) -> In (i, true) bs) /\
  (is_clipped A m (ray_of A o p) = false ->
    inside V (n * (n + 128) * u * V) (rg_nx A g) (rg_ny A g) (rg_nz A g) (reals A val p) -> exists i, In (i, true) bs).
Proof.
  intros (NX & NY & NZ) Hc Hm Hg Hcast s q.
  destruct (Hc (vx A) (or_introl eq_refl)) as (Fox & Fpx & Box & Bpx & Tx).
  destruct (Hc (vy A) (or_intror (or_introl eq_refl))) as (Foy & Fpy & Boy & Bpy & Ty).
  destruct (Hc (vz A) (or_intror (or_intror eq_refl))) as (Foz & Fpz & Boz & Bpz & Tz). clear Hc.
  destruct (grid_axes _ Hg) as (G1 & G2 & G3).
  set (r := ray_of A o p) in *. set (len := length_of A r) in *.
  assert (Hq : is_clipped A m r = true -> fin (r_div A m len) = true /\ 0 <= val (r_div A m len) <= 1).
  { intros Q. unfold is_clipped in Q. fold len in Q. destruct Hm as [->|(Fm & Pm)].
    - rewrite (rr_inf _ _ _ _ _ _ _ RR) in Q. easy.
    - apply (rr_clip _ _ _ _ _ _ _ RR); assumption. }
  assert (Hs : 0 <= s <= 1).
  { unfold s, ray_part. fold r len. destruct (is_clipped A m r); [apply Hq; reflexivity|lra]. }
  split; [exact Hs|].
  pose proof (cast_point_props A g m o (voxel_of A g o) p) as Hp. unfold cast_point in Hcast.
  unfold start_point in Hp, Hcast. rewrite Hg in Hp, Hcast.
  destruct Hp as [[Hp _]|(ps & path' & bs' & Eps & _ & _)]; [easy|]. clear ps path' bs' Eps.
  fold r in Hcast. set (si := voxel_of A g o) in *. set (fi := voxel_of A g (final_point A m o p)) in *.
  assert (ALx : axis_line 0 (vx A o) (vx A r) (val (vx A r)) (ix si) (ix fi) (rg_nx A g) s).
  { apply (axis_line_intro _ (vx A p) (r_div A m len) (is_clipped A m r)); try assumption; try reflexivity.
    unfold fi, final_point. fold r len. destruct (is_clipped A m r); reflexivity. }
  assert (ALy : axis_line 0 (vy A o) (vy A r) (val (vy A r)) (iy si) (iy fi) (rg_ny A g) s).
  { apply (axis_line_intro _ (vy A p) (r_div A m len) (is_clipped A m r)); try assumption; try reflexivity.
    unfold fi, final_point. fold r len. destruct (is_clipped A m r); reflexivity. }
  assert (ALz : axis_line 0 (vz A o) (vz A r) (val (vz A r)) (iz si) (iz fi) (rg_nz A g) s).
  { apply (axis_line_intro _ (vz A p) (r_div A m len) (is_clipped A m r)); try assumption; try reflexivity.
    unfold fi, final_point. fold r len. destruct (is_clipped A m r); reflexivity. }
  destruct (walk_props A g r si fi (walk_fuel si fi) si
    (first_t A g (vx A o) (vx A r) (ix si)) (first_t A g (vy A o) (vy A r) (iy si))
    (first_t A g (vz A o) (vz A r) (iz si))) as (path & Ew & _ & _ & Hin & _).
  { clear. unfold in_index_box. lia. }
  { clear. unfold walk_fuel, manhattan. lia. }
  rewrite Ew in Hcast. cbn [obind] in Hcast. injection Hcast as Hbs.
  destruct (walk_round_init 0 (Rle_refl 0) o r (reals A val r) si fi s ALx ALy ALz _ path Ew) as (W1 & W2).
  pose proof (start_bound _ _ _ _ _ _ _ _ ALx) as Nx. pose proof (start_bound _ _ _ _ _ _ _ _ ALy) as Ny. pose proof (start_bound _ _ _ _ _ _ _ _ ALz) as Nz.
  assert (Conv : forall i t, 0 <= t <= 1 -> in_grid A g i = true ->
    (near_voxel V E i (line o (reals A val r) t) -> near_voxel V (n * (n + 128) * u * V) i (q t)) /\
    (deep_in_voxel V (n * (n + 128) * u * V) i (q t) -> deep_in_voxel V E i (line o (reals A val r) t))).
  { intros i t Ht Hi. destruct (grid_axes _ Hi) as (I1 & I2 & I3).
    destruct (true_near (ix i) (vx A o) (vx A p) t (val (vx A r)) Fox Fpx Box Bpx Nx Ht (below _ _ I1 NX) eq_refl) as (X1 & X2).
    destruct (true_near (iy i) (vy A o) (vy A p) t (val (vy A r)) Foy Fpy Boy Bpy Ny Ht (below _ _ I2 NY) eq_refl) as (Y1 & Y2).
    destruct (true_near (iz i) (vz A o) (vz A p) t (val (vz A r)) Foz Fpz Boz Bpz Nz Ht (below _ _ I3 NZ) eq_refl) as (Z1 & Z2).
    split.
    - intros (A1 & A2 & A3). split; [exact (X1 A1)|]. split; [exact (Y1 A2)|exact (Z1 A3)].
    - intros (A1 & A2 & A3). split; [exact (X2 A1)|]. split; [exact (Y2 A2)|exact (Z2 A3)]. }
  assert (Q1 : q 1 = reals A val p).
  { unfold q, along, reals, px, py, pz. cbn [fst snd]. f_equal; [f_equal|]; ring. }
  subst bs. split; [|split; [|split; [|split]]].
  - intros i b Hi. apply in_app_or in Hi. destruct Hi as [Hi|Hi].
    + destruct (in_grid A g fi) eqn:Gf; [|easy]. destruct Hi as [Hi|[]]. injection Hi as <- _. split; [exact Gf|].
      exists s. split; [lra|]. apply Conv; [lra|exact Gf|]. now apply (near_end 0 o r (reals A val r) si).
    + apply in_map_iff in Hi. destruct Hi as (j & Ej & Hj). injection Ej as <- _.
      destruct (Hin j Hj) as (Gj & Bj & _). split; [exact Gj|].
      destruct (near_segment 0 o r (reals A val r) si fi s ALx ALy ALz j Gj Bj (W1 j Hj)) as (t & Ht & Nt).
      exists t. split; [exact Ht|]. apply Conv; [lra|exact Gj|exact Nt].
  - intros i Hi. apply in_app_or in Hi. destruct Hi as [Hi|Hi].
    + destruct (in_grid A g fi) eqn:Gf; [|easy]. destruct Hi as [Hi|[]]. injection Hi as <- Hb.
      apply negb_true_iff in Hb. split; [exact Hb|].
      assert (Es : s = 1) by (unfold s, ray_part; fold r; now rewrite Hb).
      rewrite <- Q1, <- Es. apply Conv; [lra|exact Gf|]. now apply (near_end 0 o r (reals A val r) si).
    + apply in_map_iff in Hi. destruct Hi as (j & Ej & _). easy.
  - intros t i Ht Gi D. apply Conv in D; [|lra|exact Gi].
    destruct (W2 t i Ht Gi D) as [Hi| ->].
    + exists false. apply in_or_app. right. apply in_map_iff. now exists i.
    + eexists. apply in_or_app. left. rewrite Gi. left. reflexivity.
  - intros i Hb Gi D. rewrite <- Q1 in D. apply Conv in D; [|lra|exact Gi].
    assert (Es : s = 1) by (unfold s, ray_part; fold r; now rewrite Hb).
    rewrite <- Es in D. destruct D as (D1 & D2 & D3). destruct (grid_axes _ Gi) as (I1 & I2 & I3).
    assert (Ei : i = fi).
    { apply idx_ext.
      - exact (last_deep 0 _ _ _ _ _ _ _ ALx _ I1 D1).
      - exact (last_deep 0 _ _ _ _ _ _ _ ALy _ I2 D2).
      - exact (last_deep 0 _ _ _ _ _ _ _ ALz _ I3 D3). }
    rewrite Ei in Gi |- *. apply in_or_app. left. rewrite Gi, Hb. left. reflexivity.
  - intros Hb (Ix & Iy & Iz). unfold reals in Ix, Iy, Iz. cbn [px py pz fst snd] in Ix, Iy, Iz.
    assert (Ef : fi = voxel_of A g p) by (unfold fi, final_point; fold r; now rewrite Hb).
    assert (Gf : in_grid A g fi = true).
    { rewrite Ef. unfold in_grid, in_bounds3, voxel_of. cbn [ix iy iz fst snd].
      pose proof (end_in (vx A p) (rg_nx A g) Fpx Bpx NX Ix). pose proof (end_in (vy A p) (rg_ny A g) Fpy Bpy NY Iy).
      pose proof (end_in (vz A p) (rg_nz A g) Fpz Bpz NZ Iz). lia. }
    exists fi. apply in_or_app. left. rewrite Gf, Hb. left. reflexivity.
Qed.

(** How long the kept part is, for a norm with relative error [6 * u]. *)
Lemma norm_scaled a b c a' b' c' e : 0 <= e <= 1 -> Rabs (a' - a) <= e * Rabs a -> Rabs (b' - b) <= e * Rabs b -> Rabs (c' - c) <= e * Rabs c ->
  Rabs (sqrt (a' * a' + b' * b' + c' * c') - sqrt (a * a + b * b + c * c)) <= e * sqrt (a * a + b * b + c * c).
Proof.
  clear. intros He Ha Hb Hc. assert (Q : forall x x', Rabs (x' - x) <= e * Rabs x ->
    (1 - e) * (1 - e) * (x * x) <= x' * x' <= (1 + e) * (1 + e) * (x * x)).
  { intros x x' H. assert (B : (1 - e) * Rabs x <= Rabs x' <= (1 + e) * Rabs x).
    { assert (Ex : 0 <= e * Rabs x) by (apply Rmult_le_pos; [lra|apply Rabs_pos]).
      unfold Rabs in *. destruct (Rcase_abs (x' - x)), (Rcase_abs x), (Rcase_abs x'); try lra; assert (e * - x <= 1 * - x \/ e * x <= 1 * x) by
      first [left; apply Rmult_le_compat_r; lra|right; apply Rmult_le_compat_r; lra]; lra. }
    assert (S1 : x' * x' = Rabs x' * Rabs x') by (rewrite <- Rabs_mult; symmetry; apply Rabs_pos_eq, Rle_0_sqr).
    assert (S2 : x * x = Rabs x * Rabs x) by (rewrite <- Rabs_mult; symmetry; apply Rabs_pos_eq, Rle_0_sqr).
    rewrite S1, S2. replace ((1 - e) * (1 - e) * (Rabs x * Rabs x)) with (((1 - e) * Rabs x) * ((1 - e) * Rabs x)) by ring.
    replace ((1 + e) * (1 + e) * (Rabs x * Rabs x)) with (((1 + e) * Rabs x) * ((1 + e) * Rabs x)) by ring.
    assert (0 <= (1 - e) * Rabs x) by (apply Rmult_le_pos; [lra|apply Rabs_pos]). pose proof (Rabs_pos x').
    split; apply Rmult_le_compat; lra. }
  pose proof (Q _ _ Ha) as Qa. pose proof (Q _ _ Hb) as Qb. pose proof (Q _ _ Hc) as Qc. clear Q.
  set (S := a * a + b * b + c * c). set (S' := a' * a' + b' * b' + c' * c').
  assert (S0 : 0 <= S) by (unfold S; pose proof (Rle_0_sqr a); pose proof (Rle_0_sqr b); pose proof (Rle_0_sqr c); unfold Rsqr in *; lra).
  assert (L1 : (1 - e) * (1 - e) * S <= S') by (unfold S, S'; lra).
  assert (L2 : S' <= (1 + e) * (1 + e) * S) by (unfold S, S'; lra).
  apply sqrt_le_1_alt in L1, L2. rewrite sqrt_mult_alt, sqrt_square in L1, L2; try lra; try apply Rle_0_sqr.
  apply Rabs_le. lra.
Qed.

Lemma part_length (m : rT A) (o p : vec A) :
  (forall f, f = vx A \/ f = vy A \/ f = vz A -> fin (f o) = true /\ fin (f p) = true /\
    Rabs (val (f o)) <= K * V /\ Rabs (val (f p)) <= K * V) ->
  m = r_inf A \/ (fin m = true /\ 0 <= val m) ->
  (let r := ray_of A o p in let l := sqrt (val (vx A r) * val (vx A r) + val (vy A r) * val (vy A r) + val (vz A r) * val (vz A r)) in
   fin (length_of A r) = true /\ Rabs (val (length_of A r) - l) <= 6 * u * l) ->
  let d := dist (reals A val o) (reals A val p) in let s := ray_part m o p in
  (m = r_inf A -> s = 1 /\ is_clipped A m (ray_of A o p) = false) /\
  (fin m = true -> Rabs (s * d - Rmin d (val m)) <= 20 * u * d /\
    (d + 20 * u * d <= val m -> is_clipped A m (ray_of A o p) = false) /\
    (val m + 20 * u * d < d -> is_clipped A m (ray_of A o p) = true)).
Proof.
  intros Hc Hm Hl d s.
  destruct (Hc (vx A) (or_introl eq_refl)) as (Fox & Fpx & Box & Bpx).
  destruct (Hc (vy A) (or_intror (or_introl eq_refl))) as (Foy & Fpy & Boy & Bpy).
  destruct (Hc (vz A) (or_intror (or_intror eq_refl))) as (Foz & Fpz & Boz & Bpz). clear Hc.
  destruct (diff_val _ _ Fox Fpx Box Bpx) as (_ & Dx & _). destruct (diff_val _ _ Foy Fpy Boy Bpy) as (_ & Dy & _).
  destruct (diff_val _ _ Foz Fpz Boz Bpz) as (_ & Dz & _). destruct nu_small as (NU & US & NP).
  cbv zeta in Hl. destruct Hl as (Fl & Dl). unfold s, ray_part. fold (ray_of A o p). set (r := ray_of A o p) in *.
  set (len := length_of A r) in *.
  set (l := sqrt (val (vx A r) * val (vx A r) + val (vy A r) * val (vy A r) + val (vz A r) * val (vz A r))) in *.
  assert (Dd : Rabs (l - d) <= u * d) by (unfold l, d, dist; apply norm_scaled; [lra|exact Dx|exact Dy|exact Dz]).
  assert (D0 : 0 <= d) by apply sqrt_pos. assert (UD : 0 <= u * d) by (apply Rmult_le_pos; lra).
  assert (UD2 : u * (u * d) <= / 129 * (u * d)) by (apply Rmult_le_compat_r; lra).
  assert (DL : Rabs (val len - d) <= 8 * (u * d)).
  { replace (val len - d) with ((val len - l) + (l - d)) by ring. eapply Rle_trans; [apply Rabs_triang|].
    apply Rabs_le_inv in Dd. assert (6 * u * l <= 6 * u * (d + u * d)) by (apply Rmult_le_compat_l; lra).
    assert (Rabs (l - d) <= u * d) by (apply Rabs_le; lra). lra. }
  clearbody l d. clear Dl Dd l Dx Dy Dz.
  destruct (is_clipped A m r) eqn:Cl; unfold is_clipped in Cl; fold len in Cl.
  - destruct Hm as [->|(Fm & Pm)]; [rewrite (rr_inf _ _ _ _ _ _ _ RR) in Cl; easy|].
    assert (Hq := rr_clip _ _ _ _ _ _ _ RR m len Fm Pm Cl). destruct Hq as (Fq & Q1 & Q2).
    split; [intros ->; destruct (inf_not_fin Fm)|]. intros _.
    rewrite (rr_ltb _ _ _ _ _ _ _ RR) in Cl by assumption. destruct (Rlt_bool_spec (val m) (val len)) as [C|]; [|easy].
    destruct Heta as (E0 & E1 & _). pose proof n_ge1 as N1. destruct HM as (M1 & _). destruct HK as (K1 & K2 & _).
    assert (Lp : 0 < val len) by lra. assert (B : 0 <= val m / val len <= 1).
    { split; [apply Rmult_le_pos; [exact Pm|left; apply Rinv_0_lt_compat; lra]|].
      apply Rmult_le_reg_r with (val len); [lra|]. unfold Rdiv. rewrite Rmult_assoc, Rinv_l by lra. lra. }
    destruct (rr_div _ _ _ _ _ _ _ RR m len Fm Fl) as (_ & Dq); [lra|rewrite Rabs_pos_eq; lra|].
    rewrite (Rabs_pos_eq (val m / val len)) in Dq by lra. set (q := val (r_div A m len)) in *.
    assert (Eq : val m / val len * val len = val m) by (field; lra).
    apply Rabs_le_inv in DL.
    assert (T : Rabs (q * val len - val m) <= 3 * (u * d)).
    { rewrite <- Eq. replace (q * val len - val m / val len * val len) with ((q - val m / val len) * val len) by ring.
      rewrite Rabs_mult, (Rabs_pos_eq (val len)) by lra.
      apply Rle_trans with ((u + u) * val len); [apply Rmult_le_compat_r; [lra|]|].
      - assert (u * (val m / val len) <= u * 1) by (apply Rmult_le_compat_l; lra). lra.
      - assert (u * val len <= u * (d + 8 * (u * d))) by (apply Rmult_le_compat_l; lra). lra. }
    assert (T2 : Rabs (q * d - q * val len) <= 8 * (u * d)).
    { replace (q * d - q * val len) with (q * (d - val len)) by ring. rewrite Rabs_mult, (Rabs_pos_eq q) by lra.
      apply Rle_trans with (1 * (8 * (u * d))); [|lra]. apply Rmult_le_compat; try lra; [apply Rabs_pos|apply Rabs_le; lra]. }
    apply Rabs_le_inv in T, T2. split; [|split; [intros; exfalso; lra|reflexivity]].
    apply Rabs_le. unfold Rmin. destruct (Rle_dec d (val m)); lra.
  - split; [easy|]. intros Fm. rewrite (rr_ltb _ _ _ _ _ _ _ RR) in Cl by assumption.
    destruct (Rlt_bool_spec (val m) (val len)) as [|C]; [easy|]. apply Rabs_le_inv in DL.
    split; [|split; [reflexivity|intros; exfalso; lra]].
    rewrite Rmult_1_l. apply Rabs_le. unfold Rmin. destruct (Rle_dec d (val m)); lra.
Qed.
End Rounded.
