(** Rays of a sensor anywhere, on the CPU in binary64. *)
From Coq Require Import ZArith Reals List Bool Lia Lra Psatz ZifyBool.
From Flocq Require Import Core BinarySingleNaN Relative.
From Verif Require Import Util Grid SdfSpec FloatModel FilterModel RaycastModel RaycastSpec RaycastProofs RayGeoSpec RayRoundSpec
  RayRoundProofs RayFarSpec RayFarProofs RayFloatModel RayFloatProofs RayFloatTop.
From Verif Require EdtFloat SdfDoubleProofs SdfDoubleSpec.
Import ListNotations.
Local Open Scope R_scope.

(** ** Marks with a larger error *)

Lemma near_more v e e' i q : e <= e' -> near_voxel v e i q -> near_voxel v e' i q.
Proof. intros H (X & Y & Z). unfold near_voxel. repeat split; lra. Qed.

Lemma deep_less v e e' i q : e <= e' -> deep_in_voxel v e' i q -> deep_in_voxel v e i q.
Proof. intros H (X & Y & Z). unfold deep_in_voxel. repeat split; lra. Qed.

Lemma marks_more v e e' s whole nx ny nz o p bs : e <= e' -> marks_segment v e s whole nx ny nz o p bs ->
  marks_segment v e' s whole nx ny nz o p bs.
Proof.
  intros H (M1 & M2 & M3 & M4 & M5 & M6 & M7). split; [exact M1|]. split; [exact M2|]. split; [|split; [|split; [|split]]].
  - intros i b Hi. destruct (M3 i b Hi) as (B & t & Ht & Nr). split; [exact B|]. exists t. split; [exact Ht|]. exact (near_more _ _ _ _ _ H Nr).
  - intros i Hi. destruct (M4 i Hi) as (B & Nr). split; [exact B|]. exact (near_more _ _ _ _ _ H Nr).
  - intros t i Ht B D. exact (M5 t i Ht B (deep_less _ _ _ _ _ H D)).
  - intros i W B D. exact (M6 i W B (deep_less _ _ _ _ _ H D)).
  - intros W (X & Y & Z). apply (M7 W). unfold inside. repeat split; lra.
Qed.

Lemma marks_least v e s whole nx ny nz o p bs : marks_segment v e s whole nx ny nz o p bs -> marks_at_least v e s whole nx ny nz o p bs.
Proof.
  intros (M1 & M2 & M3 & M4 & M5 & M6 & M7). split; [exact M1|]. split; [exact M2|]. split; [|split; [exact M4|split; [exact M5|split; [exact M6|exact M7]]]].
  intros i b Hi. exact (proj1 (M3 i b Hi)).
Qed.

(** ** One ray *)

(** What is required in addition for a sensor outside. *)
Definition far_setup (A : ray_arith) (fin : rT A -> bool) (val : rT A -> R) (u eta L K : R) (g : ray_grid A) (N : Z) (S th : R) : Prop :=
  (fin (r_tiny A) = true /\ val (r_tiny A) = th) /\
  (fin (r_one A) = true /\ val (r_one A) = 1) /\
  (forall a b, fin a = true -> fin b = true -> val a = 0 -> val b <> 0 -> val (r_div A a b) = 0) /\
  (0 < th <= 1 /\ 2 <= th * L) /\
  (IZR N * val (rg_voxel A g) <= S /\ th <= S /\ 8 * S <= th * (K * val (rg_voxel A g))) /\
  (256 * (u * S) <= val (rg_voxel A g) /\ 256 * (u * S) <= th) /\
  (64 * eta <= u /\ 64 * eta <= u * val (rg_voxel A g)) /\
  (forall a, fin (cs A g a) = true /\ Rabs (val (cs A g a) - IZR (cn A g a) * val (rg_voxel A g)) <= 3 * (u * S)) /\
  (forall a, (1 <= cn A g a <= N)%Z).

Lemma cast_marks_far A fin val u eta M L K lam (g : ray_grid A) N S th e m range o p bs :
  setup A fin val u eta M L K lam g N ->
  far_setup A fin val u eta L K g N S th ->
  IZR N * (IZR N + 64) * u * val (rg_voxel A g) + 256 * (u * S) + 16 * th + 8 * (S * th) + 100 * (u * S * S / th) <= e ->
  good_ray A fin val S (2 * lam * val (rg_voxel A g)) o p ->
  reals A val o <> reals A val p ->
  stands_for A fin val m range ->
  (let r := ray_of A o p in
   let l := sqrt (val (vx A r) * val (vx A r) + val (vy A r) * val (vy A r) + val (vz A r) * val (vz A r)) in
   fin (length_of A r) = true /\ Rabs (val (length_of A r) - l) <= 6 * u * l) ->
  cast_point A g m o (voxel_of A g o) p = Some bs ->
  let v := val (rg_voxel A g) in
  let a := reals A val o in
  let b := reals A val p in
  exists s whole,
    marks_at_least v e s whole (rg_nx A g) (rg_ny A g) (rg_nz A g) a b bs /\
    (reaches v e (rg_nx A g) (rg_ny A g) (rg_nz A g) a (along a b s) ->
     marks_segment v e s whole (rg_nx A g) (rg_ny A g) (rg_nz A g) a b bs) /\
    (passes_by v e (rg_nx A g) (rg_ny A g) (rg_nz A g) a b -> bs = []) /\
    cut_near (20 * u * dist a b) range (dist a b) s whole.
Proof.
  intros ST (Ft & F1 & Fd & Hth & HS & Hfar & He2 & Hsz & Hn) He Hg Hne Hm Hl Hc v a b.
  assert (ST' := ST). destruct ST as (RR & HV & HI & HN & Hu & Hs & Heta & HK & HM & Hnn).
  destruct (sizes A fin val u eta M L K lam g N HV HN Hu Hs Heta HK HM S th Hth HS) as
    (Vp & Sp & VS & US & UV & NUV & UL & SK & KV & KM & SM & TM & N1 & E0 & M1).
  assert (Hg' : good_ray A fin val (K * v) (2 * lam * v) o p).
  { intros f Hf. destruct (Hg f Hf) as (G1 & G2 & G3 & G4 & G5). repeat split; try assumption; unfold v; lra. }
  assert (NV : 0 <= u * (IZR N * v)) by (apply Rmult_le_pos; [lra|apply Rmult_le_pos; unfold v; lra]).
  assert (Te : 0 <= 16 * th + 8 * (S * th) + 100 * (u * S * S / th)).
  { destruct Hth as ((T1 & T2) & _). assert (0 <= S * th) by (apply Rmult_le_pos; lra).
    assert (0 <= u * S * S / th) by (apply Rmult_le_pos; [apply Rmult_le_pos; lra|left; apply Rinv_0_lt_compat; lra]). lra. }
  destruct (in_grid A g (voxel_of A g o)) eqn:Go.
  - destruct (cast_marks A fin val u eta M L K lam g N m range o p bs ST' Hg' Hm Hl Go Hc) as (s & whole & Mk & Cut).
    assert (Ee : IZR N * (IZR N + 128) * u * v <= e).
    { replace (IZR N * (IZR N + 128) * u * v) with (IZR N * (IZR N + 64) * u * v + 64 * (IZR N * u * v)) by ring. unfold v in *. lra. }
    pose proof (marks_more _ _ _ _ _ _ _ _ _ _ _ Ee Mk) as Mk'. exists s, whole.
    split; [exact (marks_least _ _ _ _ _ _ _ _ _ _ Mk')|]. split; [intros _; exact Mk'|]. split; [|exact Cut].
    intros Ps. exfalso. apply (Ps 0 (voxel_of A g o)); [lra|now apply in_grid_box|].
    assert (Ix : forall c, fin (co A c o) = true /\ Rabs (val (co A c o)) <= 4 * K * v /\ (0 <= ci c (voxel_of A g o) < cn A g c)%Z /\ pc c (along a b 0) = val (co A c o)).
    { intros c. pose proof (proj1 (grid_ci A g _) Go c) as Gc. destruct c; (split; [|split; [|split]]); try exact Gc;
      try (apply (Hg' (vx A)); now left); try (apply (Hg' (vy A)); right; now left); try (apply (Hg' (vz A)); right; now right).
      all: try (unfold pc, along, a, reals, px, py, pz, co; cbn [fst snd]; ring).
      - destruct (Hg' (vx A) (or_introl eq_refl)) as (_ & _ & B & _). cbn [co]. unfold v in *. lra.
      - destruct (Hg' (vy A) (or_intror (or_introl eq_refl))) as (_ & _ & B & _). cbn [co]. unfold v in *. lra.
      - destruct (Hg' (vz A) (or_intror (or_intror eq_refl))) as (_ & _ & B & _). cbn [co]. unfold v in *. lra. }
    apply (near_axes A val g). intros c. destruct (Ix c) as (F & B & Gc & ->).
    pose proof (index_far A fin val u eta M L K lam RR g N HV HI HN Hu Hs Heta HK HM c o F B) as I. destruct (Hn c) as (_ & n2).
    destruct (I (ci c (voxel_of A g o)) ltac:(clear - Gc n2; lia)) as (I1 & _). specialize (I1 (Z.le_refl _)).
    destruct (I (ci c (voxel_of A g o) + 1)%Z ltac:(clear - Gc n2; lia)) as (_ & I2). specialize (I2 ltac:(clear; lia)). rewrite plus_IZR in I2.
    assert (0 <= IZR N * (IZR N + 64) * u * v).
    { apply Rmult_le_pos; [|unfold v; lra]. apply Rmult_le_pos; [|lra]. apply Rmult_le_pos; lra. }
    unfold v in *. clear - I1 I2 He NUV US Te H. lra.
  - assert (Hm' : m = r_inf A \/ (fin m = true /\ 0 <= val m)).
    { destruct range as [q|]; [right|now left]. destruct Hm as (F & P & <-). split; assumption. }
    assert (Hco : forall c, fin (co A c o) = true /\ fin (co A c p) = true /\ Rabs (val (co A c o)) <= S /\ Rabs (val (co A c p)) <= S).
    { intros [].
      - destruct (Hg (vx A) (or_introl eq_refl)) as (G1 & G2 & G3 & G4 & _). exact (conj G1 (conj G2 (conj G3 G4))).
      - destruct (Hg (vy A) (or_intror (or_introl eq_refl))) as (G1 & G2 & G3 & G4 & _). exact (conj G1 (conj G2 (conj G3 G4))).
      - destruct (Hg (vz A) (or_intror (or_intror eq_refl))) as (G1 & G2 & G3 & G4 & _). exact (conj G1 (conj G2 (conj G3 G4))). }
    assert (Hnt : forall c, not_tiny (2 * lam * val (rg_voxel A g)) (val (co A c p) - val (co A c o))).
    { intros [].
      - exact (proj2 (proj2 (proj2 (proj2 (Hg (vx A) (or_introl eq_refl)))))).
      - exact (proj2 (proj2 (proj2 (proj2 (Hg (vy A) (or_intror (or_introl eq_refl))))))).
      - exact (proj2 (proj2 (proj2 (proj2 (Hg (vz A) (or_intror (or_intror eq_refl))))))). }
    cbv zeta in Hl. set (r := ray_of A o p) in *.
    set (l := sqrt (val (vx A r) * val (vx A r) + val (vy A r) * val (vy A r) + val (vz A r) * val (vz A r))) in *.
    assert (Hpos : 0 < l).
    { assert (0 <= l) by apply sqrt_pos. destruct (Req_dec l 0) as [Q|Q]; [exfalso|lra]. apply Hne.
      destruct (norm_ge (val (vx A r)) (val (vy A r)) (val (vz A r))) as (X & Y & Z). fold l in X, Y, Z. rewrite Q in X, Y, Z.
      assert (Zr : forall x, Rabs x <= 0 -> x = 0) by (intros x Hx; unfold Rabs in Hx; destruct (Rcase_abs x); lra).
      apply Zr in X, Y, Z.
      assert (Ra : forall c, val (co A c r) = 0 -> val (co A c p) = val (co A c o)).
      { intros c. exact (proj2 (proj2 (proj2 (ray_axis A fin val u eta M L K lam RR g N HV HN Hu Hs Heta HK HM S th Hth HS Hfar o p Hco c)))). }
      unfold reals. rewrite (Ra AX X : val (vx A p) = _), (Ra AY Y : val (vy A p) = _), (Ra AZ Z : val (vz A p) = _). reflexivity. }
    assert (FC := far_cast A fin val u eta M L K lam RR g N HV HI HN Hu Hs Heta HK HM S th Ft F1 Fd Hth HS Hfar He2 Hsz Hn m o p Hco Hl Hpos Hm' Hnt e He bs Go Hc).
    destruct FC as (C1 & C2 & C3 & C4 & C5 & C6 & C7).
    exists (ray_part A val m o p), (negb (is_clipped A m r)).
    assert (Pr := part_range A fin val u eta M L K lam RR g N HV HI Heta HK HM S th Ft F1 Hth HS Hfar He2 m o p Hl Hm').
    assert (ML : marks_at_least v e (ray_part A val m o p) (negb (is_clipped A m r)) (rg_nx A g) (rg_ny A g) (rg_nz A g) a b bs).
    { split; [exact Pr|]. split; [|split; [|split; [|split; [|split]]]].
      - intros Q. apply negb_true_iff in Q. unfold ray_part. fold r. now rewrite Q.
      - intros i q H. apply in_grid_box. exact (C1 i q H).
      - intros i H. destruct (C2 i H) as (Q1 & Q2). fold r in Q1. rewrite Q1. split; [reflexivity|exact Q2].
      - intros t i Ht H D. apply (C3 t i Ht); [now apply in_grid_box|exact D].
      - intros i Q H D. apply negb_true_iff in Q. apply C4; [exact Q|now apply in_grid_box|exact D].
      - intros Q H. apply negb_true_iff in Q. exact (C5 Q H). }
    split; [exact ML|]. split; [|split].
    + intros Rs. destruct ML as (L1 & L2 & L3 & L4 & L5). split; [exact L1|]. split; [exact L2|]. split; [|split; [exact L4|exact L5]].
      intros i q H. split; [exact (L3 i q H)|exact (C6 Rs i q H)].
    + intros Ps. apply C7. intros t i Ht Gi. apply (Ps t i Ht). now apply in_grid_box.
    + destruct (part_length A fin val u eta M L K lam RR g N HV HI HN Hu Hs Heta HK HM m o p) as (P1 & P2); try assumption.
      { intros f Hf. destruct (Hg' f Hf) as (G1 & G2 & G3 & G4 & _). exact (conj G1 (conj G2 (conj G3 G4))). }
      fold a b r in P1, P2. destruct range as [q|]; cbn [stands_for cut_near] in *.
      * destruct Hm as (F & _ & Eq). destruct (P2 F) as (Q1 & Q2 & Q3). rewrite Eq in Q1, Q2, Q3. split; [exact Q1|].
        split; intros H; [now rewrite (Q2 H)|now rewrite (Q3 H)].
      * destruct (P1 Hm) as (Q1 & Q2). now rewrite Q2.
Qed.

(** ** Binary64 *)

Lemma tiny_val (fl : b64 -> Z) : is_finite (r_tiny (double_ray fl) : b64) = true /\
  B2R (r_tiny (double_ray fl) : b64) = IZR 7737125245533627 * bpow radix2 (-86).
Proof.
  assert (E : B2SF (r_tiny (double_ray fl) : b64) = SpecFloat.S754_finite false 7737125245533627 (-86)) by (vm_compute; reflexivity).
  split.
  - rewrite <- is_finite_SF_B2SF, E. reflexivity.
  - rewrite <- SF2R_B2SF, E. reflexivity.
Qed.

Lemma one_val (fl : b64 -> Z) : is_finite (r_one (double_ray fl) : b64) = true /\ B2R (r_one (double_ray fl) : b64) = 1.
Proof.
  assert (E : B2SF (r_one (double_ray fl) : b64) = SpecFloat.S754_finite false 4503599627370496 (-52)) by (vm_compute; reflexivity).
  split.
  - rewrite <- is_finite_SF_B2SF, E. reflexivity.
  - rewrite <- SF2R_B2SF, E. unfold SF2R, F2R. cbn. lra.
Qed.

Lemma div_zero (a b : b64) : is_finite a = true -> is_finite b = true -> B2R a = 0 -> B2R b <> 0 -> B2R (Bdiv mode_NE a b) = 0.
Proof.
  intros Fa Fb Za Zb. pose proof (Bdiv_correct 53 1024 prec53 emax1024 mode_NE a b Zb) as H.
  rewrite Za in H. unfold Rdiv in H. rewrite Rmult_0_l, round_0, Rabs_R0, Rlt_bool_true in H by (apply valid_rnd_round_mode || apply bpow_gt_0).
  apply H.
Qed.

Lemma double_setup_far (fl : b64 -> Z) nx ny nz N (res : b64) :
  SdfDoubleSpec.floors fl -> is_finite res = true -> bpow radix2 (-300) <= B2R res <= bpow radix2 300 ->
  (1 <= N)%Z -> (N * (N + 128) <= 2 ^ 53)%Z -> (nx <= N)%Z -> (ny <= N)%Z -> (nz <= N)%Z ->
  setup (double_ray fl) is_finite B2R (bpow radix2 (-53)) (bpow radix2 (-1074)) (bpow radix2 1022) (bpow radix2 62)
    (bpow radix2 58) (bpow radix2 (-91)) (double_grid fl nx ny nz res) N.
Proof.
  intros Hfl Fr Hr HN Hs Nx Ny Nz.
  destruct (double_setup fl nx ny nz N res Hfl Fr Hr HN Hs Nx Ny Nz) as (RR & HV & HI & HN' & Hu & Hs' & He & (K1 & K2 & K3) & HM & Hn).
  refine (conj RR (conj HV (conj HI (conj HN' (conj Hu (conj Hs' (conj He (conj _ (conj HM Hn))))))))).
  split; [change 1 with (bpow radix2 0); apply bpow_le; clear; lia|]. split.
  - change 16 with (bpow radix2 4). rewrite <- bpow_plus. apply bpow_le. clear; lia.
  - apply Rle_trans with (1 := K3). apply bpow_le. clear; lia.
Qed.

Notation th := (IZR 7737125245533627 * bpow radix2 (-86)).

Lemma th_bounds : bpow radix2 (-34) <= th /\ 0 < th <= 1 /\ th <= 101 / 100 / 10 ^ 10 /\ / th <= 101 / 100 * 10 ^ 10.
Proof.
  assert (E : th = 7737125245533627 / 77371252455336267181195264) by (cbn; lra). rewrite E. split; [cbn; lra|]. split; [lra|]. split; [lra|].
  apply Rmult_le_reg_l with (7737125245533627 / 77371252455336267181195264); [lra|]. rewrite Rinv_r by lra. lra.
Qed.

Lemma size_val (fl : b64 -> Z) na N (res : b64) S :
  SdfDoubleSpec.floors fl -> is_finite res = true -> bpow radix2 (-300) <= B2R res <= bpow radix2 300 ->
  (1 <= N)%Z -> (N * (N + 128) <= 2 ^ 53)%Z -> (1 <= na <= N)%Z -> IZR N * B2R res <= S ->
  is_finite (b64_mul res (b64_ofZ na)) = true /\ Rabs (B2R (b64_mul res (b64_ofZ na)) - IZR na * B2R res) <= 3 * (bpow radix2 (-53) * S).
Proof.
  intros Hfl Fr Hr HN Hs Hna HS.
  destruct (double_setup fl na na na N res Hfl Fr Hr HN Hs (proj2 Hna) (proj2 Hna) (proj2 Hna)) as (RR & (_ & Vp) & _ & _ & Hu & _ & (E0 & _ & E2 & _) & (_ & K2 & K3) & (M1 & M2 & _) & _).
  cbn [double_grid rg_voxel] in *. set (V := B2R res) in *. set (u := bpow radix2 (-53)) in *.
  assert (U1 : u <= / 129) by (unfold u; cbn; lra).
  assert (Na : 1 <= IZR na <= IZR N) by (split; apply IZR_le; apply Hna).
  destruct (rr_ofZ _ _ _ _ _ _ _ RR na) as (Fz & Dz).
  { rewrite Z.abs_eq by (clear - Hna; lia). clear - Na K2 K3. pose proof (bpow_gt_0 radix2 50). lra. }
  change (r_ofZ (double_ray fl) na) with (b64_ofZ na) in Fz, Dz. set (z := B2R (b64_ofZ na)) in *.
  rewrite (Rabs_pos_eq (IZR na)) in Dz by lra.
  assert (Un : u * IZR na <= / 129 * IZR na) by (apply Rmult_le_compat_r; lra). apply Rabs_le_inv in Dz.
  assert (Zb : 0 <= z <= 2 * IZR N) by lra.
  assert (NL : 2 * IZR N * V <= bpow radix2 62 * V).
  { apply Rmult_le_compat_r; [lra|]. clear - K2 K3 Na. pose proof (bpow_gt_0 radix2 50). lra. }
  assert (VZ : 0 <= V * z <= 2 * IZR N * V).
  { split; [apply Rmult_le_pos; lra|]. rewrite Rmult_comm. apply Rmult_le_compat_r; lra. }
  destruct (rr_mul _ _ _ _ _ _ _ RR res (b64_ofZ na) Fr Fz) as (Fm & Dm & _).
  { change (Rabs (V * z) <= bpow radix2 1022). rewrite Rabs_pos_eq; lra. }
  change (r_mul (double_ray fl) res (b64_ofZ na)) with (b64_mul res (b64_ofZ na)) in Fm, Dm. split; [exact Fm|].
  change (B2R res) with V in Dm. change (B2R (b64_ofZ na)) with z in Dm. change (bpow radix2 (-53)) with u in Dm.
  rewrite (Rabs_pos_eq (V * z)) in Dm by lra. apply Rabs_le_inv in Dm.
  assert (NV : IZR na * V <= IZR N * V) by (apply Rmult_le_compat_r; lra).
  assert (A1 : u * (IZR na * V) <= u * S) by (apply Rmult_le_compat_l; lra).
  assert (A2 : V * z - IZR na * V <= u * (IZR na * V) /\ - (u * (IZR na * V)) <= V * z - IZR na * V).
  { replace (V * z - IZR na * V) with ((z - IZR na) * V) by ring. replace (u * (IZR na * V)) with (u * IZR na * V) by ring.
    split; [apply Rmult_le_compat_r; lra|]. rewrite <- Ropp_mult_distr_l_reverse. apply Rmult_le_compat_r; lra. }
  assert (A3 : u * (V * z) <= u * (130 / 129 * (IZR na * V))).
  { apply Rmult_le_compat_l; [lra|]. replace (130 / 129 * (IZR na * V)) with (V * (130 / 129 * IZR na)) by ring. apply Rmult_le_compat_l; lra. }
  assert (A4 : 64 * bpow radix2 (-1074) <= u * (IZR na * V)).
  { apply Rle_trans with (u * (1 * bpow radix2 (-300))).
    - unfold u. rewrite Rmult_1_l, <- bpow_plus. change 64 with (bpow radix2 6). rewrite <- bpow_plus. apply bpow_le. clear; lia.
    - apply Rmult_le_compat_l; [lra|]. apply Rmult_le_compat; [lra|apply bpow_ge_0|lra|apply Hr]. }
  apply Rabs_le. clear - Dm A1 A2 A3 A4 E0. lra.
Qed.

Lemma far_double (fl : b64 -> Z) nx ny nz N (res : b64) S :
  SdfDoubleSpec.floors fl -> is_finite res = true -> bpow radix2 (-300) <= B2R res <= bpow radix2 300 ->
  (1 <= N)%Z -> (N * (N + 128) <= 2 ^ 53)%Z -> (1 <= nx <= N)%Z -> (1 <= ny <= N)%Z -> (1 <= nz <= N)%Z ->
  IZR N * B2R res <= S -> / 10 ^ 9 <= S <= 2 ^ 11 -> S <= 2 ^ 21 * B2R res ->
  far_setup (double_ray fl) is_finite B2R (bpow radix2 (-53)) (bpow radix2 (-1074)) (bpow radix2 62) (bpow radix2 58)
    (double_grid fl nx ny nz res) N S th.
Proof.
  intros Hfl Fr Hr HN Hs Nx Ny Nz HS Sb Sv. destruct th_bounds as (T0 & T1 & T2 & T3).
  assert (Vp : 0 < B2R res) by (pose proof (bpow_gt_0 radix2 (-300)); lra).
  refine (conj (tiny_val fl) (conj (one_val fl) (conj div_zero (conj (conj T1 _) (conj (conj HS (conj _ _)) (conj (conj _ _) (conj (conj _ _) (conj _ _)))))))).
  - apply Rle_trans with (bpow radix2 (-34) * bpow radix2 62); [|apply Rmult_le_compat_r; [apply bpow_ge_0|exact T0]].
    rewrite <- bpow_plus. change 2 with (bpow radix2 1). apply bpow_le. clear; lia.
  - lra.
  - cbn [double_grid rg_voxel]. apply Rle_trans with (bpow radix2 (-34) * (bpow radix2 58 * B2R res)).
    + rewrite <- Rmult_assoc, <- bpow_plus. change (bpow radix2 (-34 + 58)) with (IZR 16777216). lra.
    + apply Rmult_le_compat_r; [apply Rmult_le_pos; [apply bpow_ge_0|lra]|exact T0].
  - cbn [double_grid rg_voxel]. change (bpow radix2 (-53)) with (/ IZR 9007199254740992). lra.
  - eapply Rle_trans; [|exact T0]. change (bpow radix2 (-53)) with (/ IZR 9007199254740992). change (bpow radix2 (-34)) with (/ IZR 17179869184). lra.
  - change 64 with (bpow radix2 6). rewrite <- bpow_plus. apply bpow_le. clear; lia.
  - cbn [double_grid rg_voxel]. apply Rle_trans with (bpow radix2 (-53) * bpow radix2 (-300)); [|apply Rmult_le_compat_l; [apply bpow_ge_0|apply Hr]].
    change 64 with (bpow radix2 6). rewrite <- !bpow_plus. apply bpow_le. clear; lia.
  - intros [| |].
    + exact (size_val fl nx N res S Hfl Fr Hr HN Hs Nx HS).
    + exact (size_val fl ny N res S Hfl Fr Hr HN Hs Ny HS).
    + exact (size_val fl nz N res S Hfl Fr Hr HN Hs Nz HS).
  - intros [| |]; assumption.
Qed.

Lemma error_double n v b : 0 <= n -> 0 <= v -> 0 <= b ->
  n * (n + 64) * bpow radix2 (-53) * v + 256 * (bpow radix2 (-53) * b) + 16 * th + 8 * (b * th) + 100 * (bpow radix2 (-53) * b * b / th) <= far_error n v b.
Proof.
  intros Hn Hv Hb. destruct th_bounds as (T0 & T1 & T2 & T3). unfold far_error. set (t := th) in *.
  change (bpow radix2 (-53)) with (/ IZR 9007199254740992). replace (2 ^ 53) with 9007199254740992 by ring.
  assert (B1 : b * t <= b * (101 / 100 / 10 ^ 10)) by (apply Rmult_le_compat_l; lra).
  assert (B0 : 0 <= b * b) by (apply Rmult_le_pos; lra).
  assert (B2 : / 9007199254740992 * b * b / t <= / 9007199254740992 * (b * b) * (101 / 100 * 10 ^ 10)).
  { unfold Rdiv at 1. rewrite (Rmult_assoc _ b b). apply Rmult_le_compat_l; [apply Rmult_le_pos; lra|exact T3]. }
  lra.
Qed.

Lemma marks_far (fl : b64 -> Z) nx ny nz N (res : b64) S m range (o p : vec (double_ray fl)) bs :
  SdfDoubleSpec.floors fl -> is_finite res = true -> bpow radix2 (-300) <= B2R res <= bpow radix2 300 ->
  (1 <= N)%Z -> (N * (N + 128) <= 2 ^ 53)%Z -> (1 <= nx <= N)%Z -> (1 <= ny <= N)%Z -> (1 <= nz <= N)%Z ->
  IZR N * B2R res <= S -> / 10 ^ 9 <= S <= 2 ^ 11 -> S <= 2 ^ 21 * B2R res ->
  good_ray (double_ray fl) is_finite B2R S (bpow radix2 (-90) * B2R res) o p ->
  let a := reals (double_ray fl) B2R o in
  let b := reals (double_ray fl) B2R p in
  let e := far_error (IZR N) (B2R res) S in
  a <> b ->
  stands_for (double_ray fl) is_finite B2R m range ->
  let g := double_grid fl nx ny nz res in
  cast_point _ g m o (voxel_of _ g o) p = Some bs ->
  exists s whole,
    marks_at_least (B2R res) e s whole nx ny nz a b bs /\
    (reaches (B2R res) e nx ny nz a (along a b s) -> marks_segment (B2R res) e s whole nx ny nz a b bs) /\
    (passes_by (B2R res) e nx ny nz a b -> bs = []) /\
    cut_near (20 * bpow radix2 (-53) * dist a b) range (dist a b) s whole.
Proof.
  intros Hfl Fr Hr HN Hs Nx Ny Nz HS Sb Sv Hg a b e Hne Hm g Hc.
  assert (ST := double_setup_far fl nx ny nz N res Hfl Fr Hr HN Hs (proj2 Nx) (proj2 Ny) (proj2 Nz)).
  assert (FS := far_double fl nx ny nz N res S Hfl Fr Hr HN Hs Nx Ny Nz HS Sb Sv).
  assert (Vp : 0 < B2R res) by (pose proof (bpow_gt_0 radix2 (-300)); lra).
  refine (cast_marks_far (double_ray fl) is_finite B2R (bpow radix2 (-53)) (bpow radix2 (-1074)) (bpow radix2 1022) (bpow radix2 62)
    (bpow radix2 58) (bpow radix2 (-91)) g N S th e m range o p bs ST FS _ _ Hne Hm _ Hc).
  - cbn [g double_grid rg_voxel]. apply error_double; [apply IZR_le; clear - HN; lia|lra|lra].
  - cbn [g double_grid rg_voxel]. intros f Hf. replace (2 * bpow radix2 (-91)) with (bpow radix2 (-90)) by (change 2 with (bpow radix2 1); now rewrite <- bpow_plus).
    exact (Hg f Hf).
  - cbn [g double_grid rg_voxel]. apply (ray_length 53 1024 prec53 emax1024 fl 62 (-511) 500); try (clear; lia).
    + intros c Fa Ba. apply Hfl; [exact Fa|]. eapply Rle_lt_trans; [exact Ba|]. apply bpow_lt. clear; lia.
    + intros f Hf. destruct (Hg f Hf) as (F1 & F2 & B1 & B2 & T). split; [exact F1|]. split; [exact F2|]. split.
      * apply Rle_trans with (bpow radix2 12); [|apply bpow_le; clear; lia]. change (bpow radix2 12) with (IZR 4096).
        clear - Sb B1 B2. apply Rabs_le_inv in B1, B2. apply Rabs_le. lra.
      * destruct T as [T|T]; [left; exact T|right]. eapply Rle_trans; [|exact T].
        apply Rle_trans with (bpow radix2 (-90) * bpow radix2 (-300)); [|apply Rmult_le_compat_l; [apply bpow_ge_0|apply Hr]].
        rewrite <- !bpow_plus. apply bpow_le; clear; lia.
Qed.

(** ** Clouds that miss the grid *)

Lemma cloud_unchanged A (g : ray_grid A) c t t' :
  tracking_for g t ->
  (forall p bs, In p (filter (vfinite A) (c_points A c)) ->
   cast_point A g (c_max_range A c) (c_origin A c) (voxel_of A g (c_origin A c)) (c_to_grid A c p) = Some bs -> bs = []) ->
  raycast_cloud A g c t t' -> forall i, gget t' i = gget t i.
Proof.
  intros Ht Hp Hr i. destruct (raycast_cloud_result A g c t t' Ht Hr) as (Ht' & Hv).
  assert (Z0 : forall b, points_counting A g c b = 0%Z).
  { intros b. destruct (Z.eq_dec (points_counting A g c b) 0) as [E|E]; [exact E|exfalso].
    destruct (counting_pos A g c b) as (H & _). destruct H as (p & bs & Hin & Ec & Hb); [pose proof (counting_bounds A g c b); lia|].
    rewrite (Hp p bs Hin Ec) in Hb. easy. }
  destruct (gget t i) as [(f, s)|] eqn:E.
  - rewrite (Hv i f s E), !Z0, !Z.add_0_r. destruct (proj2 (proj2 (proj2 (proj2 Ht))) i f s E) as (F1 & F2). now rewrite F1, F2.
  - destruct (gget t' i) as [x|] eqn:E'; [|reflexivity]. exfalso.
    apply gget_in_bounds in E'. rewrite <- (tracking_in_bounds g t' i Ht'), (tracking_in_bounds g t i Ht) in E'.
    destruct (gget_some t i (proj1 Ht) E') as (y & Ey). congruence.
Qed.
