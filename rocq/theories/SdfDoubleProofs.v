(** Rounding in the estimates of signed distance fields. *)
From Coq Require Import ZArith Reals List Bool Lia Lra Psatz ZifyBool.
From Flocq Require Import Core BinarySingleNaN Relative.
From Verif Require Import Util Grid EdtFloat FloatModel SdfQueryModel SdfQueryArith SdfQuerySpec SdfQueryProofs SdfEstimateProofs
  SdfDoubleModel SdfDoubleSpec ClearanceSpec.
Import ListNotations.
Local Open Scope R_scope.

(** ** Single operations *)

Definition u53 : R := bpow radix2 (-53).
Lemma u53_val : u53 * 9007199254740992 = 1.
Proof. unfold u53. change 9007199254740992 with (bpow radix2 53). now rewrite <- bpow_plus. Qed.
Lemma u53_pos : 0 < u53. Proof. apply bpow_gt_0. Qed.

Lemma rnd_close x s : bpow radix2 (-1000) <= s -> Rabs (rnd x - x) <= u53 * (Rabs x + s).
Proof.
  intros Hs. destruct (error_N_FLT radix2 (-1074) 53 ltac:(reflexivity) (fun z => negb (Z.even z)) x)
    as (e & eta & He & Ht & _ & E).
  change (rnd x) with (round radix2 (FLT_exp (-1074) 53) (Znearest (fun z => negb (Z.even z))) x). rewrite E.
  replace (x * (1 + e) + eta - x) with (x * e + eta) by ring.
  eapply Rle_trans; [apply Rabs_triang|]. rewrite Rabs_mult, Rmult_plus_distr_l. apply Rplus_le_compat.
  - rewrite (Rmult_comm u53). apply Rmult_le_compat_l; [apply Rabs_pos|].
    eapply Rle_trans; [exact He|]. change (/2) with (bpow radix2 (-1)). rewrite <- bpow_plus. apply Rle_refl.
  - eapply Rle_trans; [exact Ht|]. change (/2) with (bpow radix2 (-1)). rewrite <- bpow_plus.
    apply Rle_trans with (u53 * bpow radix2 (-1000)).
    + unfold u53. rewrite <- bpow_plus. apply bpow_le. lia.
    + apply Rmult_le_compat_l; [left; apply u53_pos|exact Hs].
Qed.

Definition huge : R := bpow radix2 1020.

Lemma rnd_huge x : Rabs x <= huge -> Rlt_bool (Rabs (rnd x)) (bpow radix2 1024) = true.
Proof.
  intros H. apply Rlt_bool_true. apply Rle_lt_trans with huge.
  - apply abs_round_le_generic; [apply FLT_exp_valid; easy|apply valid_rnd_N| |exact H].
    apply generic_format_bpow. unfold SpecFloat.fexp, SpecFloat.emin. lia.
  - apply bpow_lt. lia.
Qed.

Definition val (a : b64) (x : R) : Prop := is_finite a = true /\ B2R a = x.

Lemma add_val a b x y : val a x -> val b y -> Rabs (x + y) <= huge -> val (b64_add a b) (rnd (x + y)).
Proof.
  intros (Fa & <-) (Fb & <-) H. generalize (Bplus_correct 53 1024 _ _ mode_NE a b Fa Fb).
  change (round_mode mode_NE) with ZnearestE. rewrite rnd_huge by exact H. unfold b64_add, val. tauto.
Qed.
Lemma sub_val a b x y : val a x -> val b y -> Rabs (x - y) <= huge -> val (b64_sub a b) (rnd (x - y)).
Proof.
  intros (Fa & <-) (Fb & <-) H. generalize (Bminus_correct 53 1024 _ _ mode_NE a b Fa Fb).
  change (round_mode mode_NE) with ZnearestE. rewrite rnd_huge by exact H. unfold b64_sub, val. tauto.
Qed.
Lemma mul_val a b x y : val a x -> val b y -> Rabs (x * y) <= huge -> val (b64_mul a b) (rnd (x * y)).
Proof.
  intros (Fa & <-) (Fb & <-) H. generalize (Bmult_correct 53 1024 _ _ mode_NE a b).
  change (round_mode mode_NE) with ZnearestE. rewrite rnd_huge by exact H. rewrite Fa, Fb. unfold b64_mul, val. tauto.
Qed.
Lemma div_val a b x y : val a x -> val b y -> y <> 0 -> Rabs (x / y) <= huge -> val (b64_div a b) (rnd (x / y)).
Proof.
  intros (Fa & <-) (Fb & <-) N H. generalize (Bdiv_correct 53 1024 _ _ mode_NE a b N).
  change (round_mode mode_NE) with ZnearestE. rewrite rnd_huge by exact H. rewrite Fa. unfold b64_div, val. tauto.
Qed.

Lemma lit_val m e : (Z.abs m < P53)%Z -> (-1074 <= e <= 900)%Z -> val (b64_lit m e) (IZR m * bpow radix2 e).
Proof.
  intros Hm He. generalize (binary_normalize_correct 53 1024 _ _ mode_NE m e false).
  change (round_mode mode_NE) with ZnearestE. unfold F2R. cbn [Fnum Fexp].
  rewrite round_generic; [|apply valid_rnd_N|apply fmt_scaled; [easy|lia]].
  rewrite Rlt_bool_true; [unfold b64_lit, val; tauto|].
  rewrite Rabs_mult, <- abs_IZR, (Rabs_pos_eq (bpow _ _)) by apply bpow_ge_0.
  apply Rlt_le_trans with (bpow radix2 53 * bpow radix2 e).
  - apply Rmult_lt_compat_r; [apply bpow_gt_0|]. change (bpow radix2 53) with (IZR P53). now apply IZR_lt.
  - rewrite <- bpow_plus. apply bpow_le. lia.
Qed.

Lemma one_val : val (b64_lit 1 0) 1.
Proof. replace 1 with (1 * bpow radix2 0) by (cbn; lra). apply lit_val; easy. Qed.
Lemma half_val : val (b64_lit 1 (-1)) (1 / 2).
Proof. replace (1 / 2) with (1 * bpow radix2 (-1)) by (cbn; lra). apply lit_val; easy. Qed.

Lemma of_b32_val (x : b32) : is_finite x = true -> val (b64_of_b32 x) (B2R x).
Proof.
  intros F. destruct x as [s|s| |s m e H]; try easy.
  generalize (binary_normalize_correct 53 1024 _ _ mode_NE (cond_Zopp s (Zpos m)) e s).
  change (round_mode mode_NE) with ZnearestE.
  assert (B := bounded_lt_emax 24 128 m e H).
  destruct (proj1 (andb_true_iff _ _) H) as (C & E). apply Zeq_bool_eq in C. unfold SpecFloat.fexp, SpecFloat.emin in C.
  rewrite Digits.Zpos_digits2_pos in C. apply Zle_bool_imp_le in E.
  assert (M : (Z.abs (cond_Zopp s (Zpos m)) < P53)%Z).
  { rewrite abs_cond_Zopp. cbn [Z.abs]. assert (Zpos m < 2 ^ 24)%Z; [|unfold P53; lia].
    change (Zpos m) with (Z.abs (Zpos m)). apply (Zpower_gt_Zdigits radix2 24 (Zpos m)). lia. }
  unfold F2R. cbn [Fnum Fexp].
  rewrite round_generic; [|apply valid_rnd_N|apply fmt_scaled; [exact M|lia]].
  rewrite Rlt_bool_true; [unfold b64_of_b32, val; cbn [B2R]; unfold F2R; cbn [Fnum Fexp]; tauto|].
  rewrite Rabs_mult, <- abs_IZR, (Rabs_pos_eq (bpow _ _)) by apply bpow_ge_0.
  apply Rlt_le_trans with (bpow radix2 53 * bpow radix2 e).
  - apply Rmult_lt_compat_r; [apply bpow_gt_0|]. change (bpow radix2 53) with (IZR P53). now apply IZR_lt.
  - rewrite <- bpow_plus. apply bpow_le. lia.
Qed.

(** ** One axis *)

(** [lerp] at nearly the same place of nearly the same pair. *)
Lemma blend_near n f a U s B : (1 < n)%Z -> 0 <= U < IZR n -> 0 <= s <= 1 / 4 ->
  (forall k, (0 <= k < n)%Z -> Rabs (f k) <= B) -> (0 <= a)%Z -> (a + 1 < n)%Z ->
  (a = lower_cell n U \/ (a + 1 = lower_cell n U)%Z /\ U <= IZR a + 3 / 2 + s \/
   (a = lower_cell n U + 1)%Z /\ IZR a + 1 / 2 - s <= U) ->
  Rabs (lerp (U - IZR a - 1 / 2) (f a) (f (a + 1)%Z) - blend n f U) <= 4 * s * B.
Proof.
  intros Hn HU Hs Hf A0 A1 Ha. unfold blend. replace (n =? 1)%Z with false by lia.
  assert (HB : 0 <= B) by (pose proof (Hf a ltac:(lia)); pose proof (Rabs_pos (f a)); lra).
  assert (HsB : 0 <= s * B) by (apply Rmult_le_pos; lra).
  pose proof (Zfloor_lb (U - 1 / 2)) as Hl. pose proof (Zfloor_ub (U - 1 / 2)) as Hh.
  destruct (lower_cell_offset n U Hn HU) as (Hr & _ & _).
  destruct Ha as [-> |[(E & H)|(E & H)]].
  - rewrite Rminus_eq_0, Rabs_R0. lra.
  - rewrite <- E in *. assert (K : IZR a + 3 / 2 <= U).
    { assert (a + 1 <= Zfloor (U - 1 / 2))%Z by (unfold lower_cell in E; lia). apply IZR_le in H0.
      rewrite plus_IZR in H0. lra. }
    rewrite plus_IZR. set (d := U - IZR a - 3 / 2).
    replace (U - IZR a - 1 / 2) with (1 + d) by (unfold d; field).
    replace (U - (IZR a + 1) - 1 / 2) with d by (unfold d; field).
    assert (0 <= d <= s) by (unfold d; lra).
    pose proof (Hf a ltac:(lia)) as F0. pose proof (Hf (a + 1)%Z ltac:(lia)) as F1. pose proof (Hf (a + 1 + 1)%Z ltac:(lia)) as F2.
    set (x := f a) in *. set (y := f (a + 1)%Z) in *. set (z := f (a + 1 + 1)%Z) in *. clearbody x y z d.
    replace (lerp (1 + d) x y - lerp d y z) with (d * (2 * y - x - z)) by (unfold lerp; ring).
    rewrite Rabs_mult, (Rabs_pos_eq d) by lra. replace (4 * s * B) with (s * (4 * B)) by ring.
    apply Rmult_le_compat; [lra|apply Rabs_pos|lra|]. apply Rabs_le. apply Rabs_le_inv in F0, F1, F2. lra.
  - assert (K : U < IZR a + 1 / 2).
    { assert (Zfloor (U - 1 / 2) + 1 <= a)%Z by (unfold lower_cell in E; lia). apply IZR_le in H0.
      rewrite plus_IZR in H0. lra. }
    assert (a - 1 = lower_cell n U)%Z as E' by lia. rewrite <- E' in *. rewrite minus_IZR.
    set (d := IZR a + 1 / 2 - U).
    replace (U - IZR a - 1 / 2) with (- d) by (unfold d; field).
    replace (U - (IZR a - 1) - 1 / 2) with (1 - d) by (unfold d; field).
    replace (a - 1 + 1)%Z with a by lia.
    assert (0 <= d <= s) by (unfold d; lra).
    pose proof (Hf a ltac:(lia)) as F0. pose proof (Hf (a + 1)%Z ltac:(lia)) as F1. pose proof (Hf (a - 1)%Z ltac:(lia)) as F2.
    set (x := f a) in *. set (y := f (a + 1)%Z) in *. set (z := f (a - 1)%Z) in *. clearbody x y z d.
    replace (lerp (- d) x y - lerp (1 - d) z x) with (d * (2 * x - y - z)) by (unfold lerp; ring).
    rewrite Rabs_mult, (Rabs_pos_eq d) by lra. replace (4 * s * B) with (s * (4 * B)) by ring.
    apply Rmult_le_compat; [lra|apply Rabs_pos|lra|]. apply Rabs_le. apply Rabs_le_inv in F0, F1, F2. lra.
Qed.

(** The pair of cells when index and offset are only nearly right. *)
Definition pair_of (up : bool) (i n : Z) : Z * Z :=
  if up then if (n <=? i + 1)%Z then (if (i - 1 <? 0)%Z then i else i - 1, i)%Z else (i, i + 1)%Z
  else if (i - 1 <? 0)%Z then (i, if (n <=? i + 1)%Z then i else i + 1)%Z else (i - 1, i)%Z.

Lemma pair_near up i n U s : (0 <= i < n)%Z -> 0 <= s <= 1 / 4 ->
  IZR i - s <= U <= IZR i + 1 + s -> (up = true -> IZR i + 1 / 2 - s <= U) -> (up = false -> U <= IZR i + 1 / 2 + s) ->
  let P := pair_of up i n in
  (n = 1%Z /\ P = (0, 0)%Z /\ -1 / 2 - s <= U - IZR (fst P) - 1 / 2 <= 1 / 2 + s) \/
  ((1 < n)%Z /\ (0 <= fst P)%Z /\ (fst P + 1 < n)%Z /\ snd P = (fst P + 1)%Z /\
   -1 / 2 - s <= U - IZR (fst P) - 1 / 2 <= 3 / 2 + s /\
   (0 <= U < IZR n ->
    fst P = lower_cell n U \/ (fst P + 1 = lower_cell n U)%Z /\ U <= IZR (fst P) + 3 / 2 + s \/
    (fst P = lower_cell n U + 1)%Z /\ IZR (fst P) + 1 / 2 - s <= U)).
Proof.
  intros Hi Hs HU Hup Hdown P. destruct (Z.eq_dec n 1) as [E|E].
  { left. assert (i = 0%Z) as -> by lia. subst n. unfold P, pair_of. split; [easy|].
    destruct up; cbn [Z.leb Z.ltb Z.add Z.sub Z.compare Pos.compare Pos.compare_cont Z.opp Z.pos_sub fst snd]; (split; [easy|]); lra. }
  right. split; [lia|]. pose proof (Zfloor_lb (U - 1 / 2)) as Hl. pose proof (Zfloor_ub (U - 1 / 2)) as Hh.
  set (k := Zfloor (U - 1 / 2)) in *.
  assert (K1 : (i - 1 <= k)%Z).
  { apply Z.lt_succ_r. apply lt_IZR. unfold Z.succ. rewrite minus_IZR, plus_IZR. lra. }
  assert (K2 : (k <= i)%Z).
  { apply Z.lt_succ_r. apply lt_IZR. unfold Z.succ. rewrite plus_IZR. lra. }
  assert (K3 : (k = i)%Z -> IZR i + 1 / 2 <= U) by (intros <-; lra).
  assert (K4 : (k = i - 1)%Z -> U < IZR i + 1 / 2) by (intros X; rewrite X, minus_IZR in Hh; lra).
  assert (LC : lower_cell n U = Z.max 0 (Z.min (n - 2) k)) by reflexivity. clearbody k.
  assert (Cases : (P = (i, i + 1)%Z /\ (i + 1 < n)%Z /\ (up = true \/ i = 0%Z)) \/
                  (P = (i - 1, i)%Z /\ (0 < i)%Z /\ (up = false \/ (i = n - 1)%Z))).
  { unfold P, pair_of. destruct up.
    - destruct (n <=? i + 1)%Z eqn:E1.
      + right. replace (i - 1 <? 0)%Z with false by lia. split; [easy|]. split; [lia|]. right. lia.
      + left. split; [easy|]. split; [lia|]. now left.
    - destruct (i - 1 <? 0)%Z eqn:E1.
      + left. replace (n <=? i + 1)%Z with false by lia. split; [easy|]. split; [lia|]. right. lia.
      + right. split; [easy|]. split; [lia|]. now left. }
  destruct Cases as [(-> & C & D)|(-> & C & D)]; cbn [fst snd].
  - split; [lia|]. split; [lia|]. split; [easy|]. split; [split; lra|]. intros _. rewrite LC.
    destruct (Z.eq_dec k i) as [Ek|Ek]; [left; lia|]. assert (k = i - 1)%Z as Ek' by lia.
    destruct (Z.eq_dec i 0) as [Ei|Ei]; [left; lia|]. right. right. split; [lia|].
    destruct D as [D|D]; [now apply Hup|lia].
  - split; [lia|]. split; [lia|]. split; [lia|]. rewrite minus_IZR.
    split.
    { split; [lra|]. destruct D as [D|D]; [specialize (Hdown D); lra|lra]. }
    intros HU'. rewrite LC.
    destruct (Z.eq_dec k i) as [Ek|Ek]; [|left; lia].
    destruct (Z.eq_dec i (n - 1)) as [Ei|Ei]; [left; lia|]. right. left. split; [lia|].
    destruct D as [D|D]; [specialize (Hdown D); lra|lia].
Qed.

Lemma axis_indices_pair V ssub of fl tri i n off :
  axis_indices (double_query V ssub of fl tri) i n off = pair_of (b64_leb (B754_zero false) off) i n.
Proof. reflexivity. Qed.

Section Axis.
Variables (res : b64) (r N : R).
Hypothesis Hres : val res r.
Hypothesis Hr : bpow radix2 (-900) <= r <= bpow radix2 900.
Hypothesis HN : 1 <= N <= 33554432.

(** What rounding may do to a coordinate that is measured in voxels. *)
Definition slack : R := 8 * u53 * N.

Lemma r_pos : 0 < r.
Proof using Hr. pose proof (bpow_gt_0 radix2 (-900)). lra. Qed.

Lemma slack_pos : 0 < slack.
Proof using HN. unfold slack. pose proof u53_pos. nra. Qed.

Lemma slack_small : slack <= / 33554432.
Proof using HN. unfold slack. pose proof u53_pos. pose proof u53_val. nra. Qed.

Lemma u_slack c : 0 <= c -> u53 * (c * N) = slack * (c / 8).
Proof using. intros _. unfold slack. field. Qed.

Lemma rnd_near x s : r <= s -> Rabs (rnd x - x) <= u53 * (Rabs x + s).
Proof using Hr.
  intros H. apply rnd_close. apply Rle_trans with r; [|exact H]. apply Rle_trans with (bpow radix2 (-900)); [|lra].
  apply bpow_le. lia.
Qed.

Lemma r_huge c : 0 <= c <= bpow radix2 100 -> c * r <= huge.
Proof using Hr.
  intros H. pose proof r_pos. apply Rle_trans with (bpow radix2 100 * bpow radix2 900).
  - apply Rmult_le_compat; lra.
  - rewrite <- bpow_plus. apply bpow_le. lia.
Qed.

Lemma big100 : 1000000000000000000000000000 <= bpow radix2 100.
Proof using. change (bpow radix2 100) with (IZR (2 ^ 100)). apply IZR_le. lia. Qed.

Lemma inv_val : exists v, val (b64_div (b64_lit 1 0) res) v /\ Rabs (v * r - 1) <= 2 * u53.
Proof using Hres Hr.
  pose proof r_pos as P. exists (rnd (1 / r)).
  assert (I : 1 / r <= bpow radix2 900).
  { unfold Rdiv. rewrite Rmult_1_l. change 900%Z with (- (-900))%Z. rewrite bpow_opp. apply Rinv_le; [apply bpow_gt_0|lra]. }
  assert (I' : bpow radix2 (-900) <= 1 / r).
  { unfold Rdiv. rewrite Rmult_1_l. change (-900)%Z with (- (900))%Z. rewrite bpow_opp. apply Rinv_le; lra. }
  assert (I0 : 0 < 1 / r) by (pose proof (bpow_gt_0 radix2 (-900)); lra).
  split.
  - apply div_val; [apply one_val|exact Hres|lra|]. rewrite Rabs_pos_eq by lra. eapply Rle_trans; [exact I|].
    apply bpow_le. lia.
  - pose proof (rnd_close (1 / r) (1 / r)) as H. rewrite (Rabs_pos_eq (1 / r)) in H by lra.
    assert (S : bpow radix2 (-1000) <= 1 / r) by (apply Rle_trans with (bpow radix2 (-900)); [apply bpow_le; lia|lra]).
    specialize (H S). replace (rnd (1 / r) * r - 1) with ((rnd (1 / r) - 1 / r) * r) by (field; lra).
    rewrite Rabs_mult, (Rabs_pos_eq r) by lra.
    apply Rle_trans with (u53 * (1 / r + 1 / r) * r); [apply Rmult_le_compat_r; lra|].
    right. field. lra.
Qed.

Lemma product_val q U inv : val q (U * r) -> Rabs U <= bpow radix2 62 ->
  val inv (B2R inv) -> Rabs (B2R inv * r - 1) <= 2 * u53 ->
  exists p, val (b64_mul q inv) p /\ Rabs (p - U) <= u53 * (4 * Rabs U + 1).
Proof using Hr.
  intros Hq HU Hv Hi. pose proof r_pos as P. pose proof u53_pos as Up. pose proof u53_val as Uv.
  set (v := B2R inv) in *. exists (rnd (U * r * v)).
  assert (E : Rabs (U * r * v - U) <= 2 * u53 * Rabs U).
  { replace (U * r * v - U) with ((v * r - 1) * U) by ring. rewrite Rabs_mult.
    apply Rmult_le_compat_r; [apply Rabs_pos|exact Hi]. }
  assert (A : Rabs (U * r * v) <= (1 + 2 * u53) * Rabs U).
  { replace (U * r * v) with (U + (U * r * v - U)) by ring. eapply Rle_trans; [apply Rabs_triang|]. lra. }
  pose proof (Rabs_pos U) as PU.
  split.
  - apply mul_val; [exact Hq|exact Hv|]. eapply Rle_trans; [exact A|].
    apply Rle_trans with (2 * bpow radix2 62); [nra|]. change 2 with (bpow radix2 1) at 1. rewrite <- bpow_plus.
    apply bpow_le. lia.
  - pose proof (rnd_close (U * r * v) 1) as H. 
    assert (S : bpow radix2 (-1000) <= 1) by (change 1 with (bpow radix2 0); apply bpow_le; lia). specialize (H S).
    replace (rnd (U * r * v) - U) with ((rnd (U * r * v) - U * r * v) + (U * r * v - U)) by ring.
    eapply Rle_trans; [apply Rabs_triang|]. nra.
Qed.

Lemma centre_val k : (0 <= k)%Z -> IZR k + 1 <= N ->
  exists c, val (b64_mul res (b64_add (b64_ofZ k) (b64_lit 1 (-1)))) c /\
    Rabs (c - r * (IZR k + 1 / 2)) <= slack * (1 / 4) * r.
Proof using Hres Hr HN.
  intros K0 K1. pose proof r_pos as P. pose proof u53_pos as Up. pose proof u53_val as Uv.
  assert (Kk : (k < 33554432)%Z) by (apply lt_IZR; lra).
  assert (K0' : 0 <= IZR k) by now apply IZR_le.
  assert (V : val (b64_add (b64_ofZ k) (b64_lit 1 (-1))) (IZR k + 1 / 2)).
  { assert (F : rnd (IZR k + 1 / 2) = IZR k + 1 / 2).
    { apply round_generic; [apply valid_rnd_N|].
      replace (IZR k + 1 / 2) with (IZR (2 * k + 1) * bpow radix2 (-1)).
      - apply fmt_scaled; unfold P53; lia.
      - rewrite plus_IZR, mult_IZR. cbn. field. }
    rewrite <- F. apply add_val; [|apply half_val|].
    - apply ofZ_exact. unfold P53. lia.
    - rewrite Rabs_pos_eq by lra. apply Rle_trans with (bpow radix2 100); [pose proof big100; lra|apply bpow_le; lia]. }
  exists (rnd (r * (IZR k + 1 / 2))). split.
  - apply mul_val; [exact Hres|exact V|]. rewrite Rabs_pos_eq by nra. rewrite Rmult_comm. apply r_huge.
    pose proof big100. lra.
  - pose proof (rnd_near (r * (IZR k + 1 / 2)) r ltac:(lra)) as H. rewrite (Rabs_pos_eq (r * _)) in H by nra.
    eapply Rle_trans; [exact H|]. unfold slack.
    replace (u53 * (r * (IZR k + 1 / 2) + r)) with (u53 * (IZR k + 3 / 2) * r) by field.
    apply Rmult_le_compat_r; [lra|]. nra.
Qed.

Lemma leb_zero a x : val a x -> b64_leb (B754_zero false) a = true <-> 0 <= x.
Proof using.
  intros (F & <-). rewrite leb_fin by easy. cbn [B2R]. apply Rle_bool_iff.
Qed.

(** Sign of the rounded offset from a cell centre. *)
Lemma offset_near q U c k : val q (U * r) -> val c (B2R c) -> Rabs U <= 2 * N -> 0 <= IZR k + 1 <= N ->
  Rabs (B2R c - r * (IZR k + 1 / 2)) <= slack * (1 / 4) * r ->
  let o := b64_sub q c in
  is_finite o = true /\
  (b64_leb (B754_zero false) o = true -> IZR k + 1 / 2 - slack <= U) /\
  (b64_leb (B754_zero false) o = false -> U <= IZR k + 1 / 2 + slack).
Proof using Hr HN.
  intros Hq Hc HU HK Hcc o. pose proof r_pos as P. pose proof u53_pos as Up. pose proof u53_val as Uv.
  pose proof slack_pos as Sp. pose proof slack_small as Ss.
  set (cc := B2R c) in *.
  assert (B1 : Rabs (U * r) <= 2 * N * r) by (rewrite Rabs_mult, (Rabs_pos_eq r) by lra; apply Rmult_le_compat_r; lra).
  apply Rabs_le_inv in Hcc, B1.
  assert (V : val o (rnd (U * r - cc))).
  { apply sub_val; [exact Hq|exact Hc|]. apply Rle_trans with ((4 * N + 4) * r).
    - apply Rabs_le. nra.
    - apply r_huge. pose proof big100. lra. }
  split; [apply V|]. pose proof (leb_zero _ _ V) as L.
  pose proof (rnd_near (U * r - cc) r ltac:(lra)) as H. apply Rabs_le_inv in H.
  assert (E : U * r - cc = (U - (IZR k + 1 / 2)) * r - (cc - r * (IZR k + 1 / 2))) by ring.
  assert (SN : 8 * u53 <= slack) by (unfold slack; nra).
  split; intros Hb.
  - apply L in Hb. apply Rnot_lt_le. intros Hn.
    assert (D : U * r - cc <= - (3 / 4) * slack * r) by nra.
    rewrite (Rabs_left1 (U * r - cc)) in H by nra.
    set (d := U * r - cc) in *. clearbody d. 
    assert (d * (1 - u53) + u53 * r >= 0) by lra. nra.
  - assert (Hb' : rnd (U * r - cc) < 0).
    { apply Rnot_le_lt. intros X. apply L in X. congruence. }
    apply Rnot_lt_le. intros Hn.
    assert (D : 3 / 4 * slack * r <= U * r - cc) by nra.
    rewrite (Rabs_pos_eq (U * r - cc)) in H by nra.
    set (d := U * r - cc) in *. clearbody d.
    assert (d * (1 - u53) - u53 * r <= 0) by lra. nra.
Qed.

(** Upper end of a pair of cells, and the place of the location between its ends. *)
Lemma place_near lo U a : val lo (B2R lo) -> 0 <= IZR a + 1 <= N -> -1 <= IZR a ->
  Rabs (B2R lo - r * (IZR a + 1 / 2)) <= slack * (1 / 4) * r ->
  -1 <= U - IZR a - 1 / 2 <= 2 ->
  exists hi, val (b64_add lo res) hi /\ r / 2 <= hi - B2R lo /\
    Rabs ((U * r - B2R lo) / (hi - B2R lo) - (U - IZR a - 1 / 2)) <= 2 * slack.
Proof using Hres Hr HN.
  intros Hlo HK HA Hc Ht. pose proof r_pos as P. pose proof u53_pos as Up. pose proof u53_val as Uv.
  pose proof slack_pos as Sp. pose proof slack_small as Ss. set (l := B2R lo) in *.
  exists (rnd (l + r)). apply Rabs_le_inv in Hc.
  assert (SN : u53 * N = slack / 8) by (unfold slack; field).
  assert (B1 : Rabs (l + r) <= (N + 2) * r) by (apply Rabs_le; nra).
  assert (V : val (b64_add lo res) (rnd (l + r))).
  { apply add_val; [exact Hlo|exact Hres|]. eapply Rle_trans; [exact B1|]. apply r_huge. pose proof big100. lra. }
  pose proof (rnd_near (l + r) r ltac:(lra)) as H.
  assert (Hh : Rabs (rnd (l + r) - l - r) <= slack / 2 * r).
  { replace (rnd (l + r) - l - r) with (rnd (l + r) - (l + r)) by ring. eapply Rle_trans; [exact H|].
    apply Rle_trans with (u53 * ((N + 2) * r + r)); [apply Rmult_le_compat_l; lra|].
    replace (u53 * ((N + 2) * r + r)) with ((u53 * N + 3 * u53) * r) by ring. apply Rmult_le_compat_r; [lra|]. nra. }
  set (hi := rnd (l + r)) in *. clearbody hi. apply Rabs_le_inv in Hh.
  split; [exact V|]. assert (W : r / 2 <= hi - l) by nra. split; [exact W|].
  set (t := U - IZR a - 1 / 2) in *.
  replace ((U * r - l) / (hi - l) - t) with ((U * r - l - t * (hi - l)) / (hi - l)) by (field; lra).
  unfold Rdiv. rewrite Rabs_mult, (Rabs_pos_eq (/ (hi - l))) by (left; apply Rinv_0_lt_compat; lra).
  apply Rmult_le_reg_r with (hi - l); [lra|]. rewrite Rmult_assoc, Rinv_l, Rmult_1_r by lra.
  assert (E : U * r - l - t * (hi - l) = (r * (IZR a + 1 / 2) - l) - t * (hi - l - r)) by (unfold t; ring).
  rewrite E. clearbody t.
  assert (T1 : Rabs (t * (hi - l - r)) <= 2 * (slack / 2 * r)).
  { rewrite Rabs_mult. apply Rmult_le_compat; try apply Rabs_pos; apply Rabs_le; lra. }
  eapply Rle_trans; [apply Rabs_triang|]. rewrite Rabs_Ropp.
  assert (T2 : Rabs (r * (IZR a + 1 / 2) - l) <= slack * (1 / 4) * r) by (apply Rabs_le; lra).
  assert (W' : r * (3 / 4) <= hi - l) by nra. nra.
Qed.
End Axis.

(** ** Three dimensions *)

Lemma lerp_weights t a b w B : Rabs (1 - t) + Rabs t <= w -> Rabs a <= B -> Rabs b <= B -> Rabs (lerp t a b) <= w * B.
Proof.
  intros Hw Ha Hb. unfold lerp. replace (a + (b - a) * t) with ((1 - t) * a + t * b) by ring.
  assert (HB : 0 <= B) by (pose proof (Rabs_pos a); lra).
  eapply Rle_trans; [apply Rabs_triang|]. rewrite !Rabs_mult.
  apply Rle_trans with (Rabs (1 - t) * B + Rabs t * B).
  - apply Rplus_le_compat; apply Rmult_le_compat_l; try apply Rabs_pos; assumption.
  - rewrite <- Rmult_plus_distr_r. apply Rmult_le_compat_r; lra.
Qed.

Lemma lerp_sub t a b c d : lerp t a b - lerp t c d = lerp t (a - c) (b - d).
Proof. unfold lerp. ring. Qed.

(** What one axis does: indices of a pair, and a weight close to that of exact arithmetic. *)
Definition axis_ok (n : Z) (U e : R) (P : Z * Z) (t : R) : Prop :=
  (0 <= fst P < n)%Z /\ (0 <= snd P < n)%Z /\ Rabs (1 - t) + Rabs t <= 21 / 10 /\
  (0 <= U < IZR n -> forall f B, (forall k, (0 <= k < n)%Z -> Rabs (f k) <= B) ->
     Rabs (lerp t (f (fst P)) (f (snd P)) - blend n f U) <= e * B).

Lemma near3 nx ny nz (f g : Z -> Z -> Z -> R) e d B Px Py Pz tx ty tz Ux Uy Uz :
  0 <= e -> 0 <= d ->
  (1 <= nx)%Z -> (1 <= ny)%Z -> (1 <= nz)%Z ->
  0 <= Ux < IZR nx -> 0 <= Uy < IZR ny -> 0 <= Uz < IZR nz ->
  axis_ok nx Ux e Px tx -> axis_ok ny Uy e Py ty -> axis_ok nz Uz e Pz tz ->
  (forall a b c, (0 <= a < nx)%Z -> (0 <= b < ny)%Z -> (0 <= c < nz)%Z ->
     Rabs (f a b c) <= B /\ Rabs (g a b c - f a b c) <= d) ->
  let L F := lerp tx
    (lerp ty (lerp tz (F (fst Px) (fst Py) (fst Pz)) (F (fst Px) (fst Py) (snd Pz)))
             (lerp tz (F (fst Px) (snd Py) (fst Pz)) (F (fst Px) (snd Py) (snd Pz))))
    (lerp ty (lerp tz (F (snd Px) (fst Py) (fst Pz)) (F (snd Px) (fst Py) (snd Pz)))
             (lerp tz (F (snd Px) (snd Py) (fst Pz)) (F (snd Px) (snd Py) (snd Pz)))) in
  Rabs (L g - blend nx (fun a => blend ny (fun b => blend nz (fun c => f a b c) Uz) Uy) Ux) <= 13 * e * B + 10 * d.
Proof.
  intros He Hd Nx Ny Nz HUx HUy HUz (X1 & X2 & X3 & X4) (Y1 & Y2 & Y3 & Y4) (Z1 & Z2 & Z3 & Z4) Hf L.
  specialize (X4 HUx). specialize (Y4 HUy). specialize (Z4 HUz).
  set (bz := fun a b => blend nz (fun c => f a b c) Uz). set (by_ := fun a => blend ny (fun b => bz a b) Uy).
  assert (HB : 0 <= B).
  { destruct (Hf 0 0 0)%Z as (H & _); try lia. pose proof (Rabs_pos (f 0 0 0)%Z). lra. }
  assert (HeB : 0 <= e * B) by now apply Rmult_le_pos.
  (* one axis at a time *)
  assert (Bz : forall a b, (0 <= a < nx)%Z -> (0 <= b < ny)%Z -> Rabs (bz a b) <= 2 * B).
  { intros a b Ha Hb. apply blend_abs; try assumption. intros c Hc _. now apply Hf. }
  assert (By : forall a, (0 <= a < nx)%Z -> Rabs (by_ a) <= 4 * B).
  { intros a Ha. replace (4 * B) with (2 * (2 * B)) by ring. apply blend_abs; try assumption. intros b Hb _. now apply Bz. }
  assert (Lz : forall a b, (0 <= a < nx)%Z -> (0 <= b < ny)%Z ->
    Rabs (lerp tz (g a b (fst Pz)) (g a b (snd Pz)) - bz a b) <= e * B + 21 / 10 * d).
  { intros a b Ha Hb.
    replace (lerp tz (g a b (fst Pz)) (g a b (snd Pz)) - bz a b)
      with (lerp tz (f a b (fst Pz)) (f a b (snd Pz)) - bz a b +
            (lerp tz (g a b (fst Pz)) (g a b (snd Pz)) - lerp tz (f a b (fst Pz)) (f a b (snd Pz)))) by ring.
    eapply Rle_trans; [apply Rabs_triang|]. apply Rplus_le_compat.
    - apply (Z4 (fun c => f a b c)). intros k Hk. now apply Hf.
    - rewrite lerp_sub. apply lerp_weights; [exact Z3| |]; now apply Hf. }
  set (lz := fun a b => lerp tz (g a b (fst Pz)) (g a b (snd Pz))) in *.
  assert (Ly : forall a, (0 <= a < nx)%Z ->
    Rabs (lerp ty (lz a (fst Py)) (lz a (snd Py)) - by_ a) <= e * (2 * B) + 21 / 10 * (e * B + 21 / 10 * d)).
  { intros a Ha.
    replace (lerp ty (lz a (fst Py)) (lz a (snd Py)) - by_ a)
      with (lerp ty (bz a (fst Py)) (bz a (snd Py)) - by_ a +
            (lerp ty (lz a (fst Py)) (lz a (snd Py)) - lerp ty (bz a (fst Py)) (bz a (snd Py)))) by ring.
    eapply Rle_trans; [apply Rabs_triang|]. apply Rplus_le_compat.
    - apply (Y4 (fun b => bz a b)). intros k Hk. now apply Bz.
    - rewrite lerp_sub. apply lerp_weights; [exact Y3| |]; now apply Lz. }
  set (ly := fun a => lerp ty (lz a (fst Py)) (lz a (snd Py))) in *.
  change (Rabs (lerp tx (ly (fst Px)) (ly (snd Px)) - blend nx (fun a => by_ a) Ux) <= 13 * e * B + 10 * d).
  replace (lerp tx (ly (fst Px)) (ly (snd Px)) - blend nx (fun a => by_ a) Ux)
    with (lerp tx (by_ (fst Px)) (by_ (snd Px)) - blend nx (fun a => by_ a) Ux +
          (lerp tx (ly (fst Px)) (ly (snd Px)) - lerp tx (by_ (fst Px)) (by_ (snd Px)))) by ring.
  eapply Rle_trans; [apply Rabs_triang|].
  assert (T1 : Rabs (lerp tx (by_ (fst Px)) (by_ (snd Px)) - blend nx (fun a => by_ a) Ux) <= e * (4 * B)).
  { apply (X4 (fun a => by_ a)). intros k Hk. now apply By. }
  assert (T2 : Rabs (lerp tx (ly (fst Px)) (ly (snd Px)) - lerp tx (by_ (fst Px)) (by_ (snd Px))) <=
    21 / 10 * (e * (2 * B) + 21 / 10 * (e * B + 21 / 10 * d))).
  { rewrite lerp_sub. apply lerp_weights; [exact X3| |]; now apply Ly. }
  eapply Rle_trans; [apply Rplus_le_compat; [exact T1|exact T2]|]. lra.
Qed.
