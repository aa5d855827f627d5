(** The single-precision signed distance field, and the accuracy of both. *)
From Coq Require Import ZArith Reals List Lia Lra Bool.
From Flocq Require Import Core BinarySingleNaN Relative.
From Verif Require Import Util Grid Prog Schedule EdtModel FloatModel EdtSpec EdtLineProofs EdtProofs
  EdtFloat SdfModel SdfSpec SdfProofs SdfLaws SdfFloatSpec SdfFloatProofs FilterModel FilterFloatProofs SdfSingleModel.
Local Open Scope Z_scope.

Lemma round32_tiny x : (bpow radix2 (-150) < x)%R -> (bpow radix2 (-149) <= round32 x)%R.
Proof.
  intros L. apply round_N_ge_midp; [apply FLT_exp_valid; easy|apply fmt32_bpow; lia|].
  replace (bpow radix2 (-149)) with (succ radix2 (SpecFloat.fexp 24 128) 0); [|rewrite succ_0; apply ulp_FLT_0; easy].
  rewrite pred_succ; [|apply FLT_exp_valid; easy|apply generic_format_0].
  rewrite succ_0. change (SpecFloat.fexp 24 128) with (FLT_exp (-149) 24). rewrite ulp_FLT_0 by easy.
  replace (bpow radix2 (-149)) with (2 * bpow radix2 (-150))%R; [lra|].
  change (-149) with (1 + -150). rewrite bpow_plus. reflexivity.
Qed.

Lemma round32_le x y : (x <= y)%R -> (round32 x <= round32 y)%R.
Proof. apply rnd32_le. Qed.

Lemma round32_nonneg x : (0 <= x)%R -> (0 <= round32 x)%R.
Proof. intros H. rewrite <- (round_0 radix2 (SpecFloat.fexp 24 128) ZnearestE). now apply round32_le. Qed.

(** Narrowing a positive number and its opposite. *)
Lemma narrow (f : bool) mm e H : let w : b64 := B754_finite false mm e H in
  let v := b32_of_b64 (if f then Bopp w else w) in
  if Rlt_dec (round32 (B2R w)) (bpow radix2 128)
  then is_finite v = true /\ B2R v = (if f then - round32 (B2R w) else round32 (B2R w))%R
  else v = B754_infinity f.
Proof.
  intros w v. assert (Pw : (0 < B2R w)%R) by (apply F2R_gt_0; reflexivity).
  pose proof (round32_nonneg (B2R w) ltac:(lra)) as Pr.
  assert (E : v = binary_normalize 24 128 _ _ mode_NE (if f then Z.neg mm else Z.pos mm) e f) by (unfold v, w; destruct f; reflexivity).
  generalize (binary_normalize_correct 24 128 _ _ mode_NE (if f then Z.neg mm else Z.pos mm) e f).
  rewrite <- E. cbv zeta. change (round_mode mode_NE) with ZnearestE. clear E. clearbody v.
  assert (X : F2R (Float radix2 (if f then Z.neg mm else Z.pos mm) e) = (if f then - B2R w else B2R w)%R).
  { destruct f; [|reflexivity]. change (Z.neg mm) with (- Z.pos mm). now rewrite F2R_Zopp. }
  rewrite X.
  assert (R : round radix2 (SpecFloat.fexp 24 128) ZnearestE (if f then - B2R w else B2R w)%R
              = (if f then - round32 (B2R w) else round32 (B2R w))%R).
  { destruct f; [apply round_NE_opp|reflexivity]. }
  rewrite R.
  assert (Ab : Rabs (if f then - round32 (B2R w) else round32 (B2R w)) = round32 (B2R w)).
  { destruct f; [rewrite Rabs_Ropp|]; now apply Rabs_pos_eq. }
  rewrite Ab. destruct (Rlt_dec _ _) as [L|L].
  - rewrite Rlt_bool_true by exact L. tauto.
  - rewrite Rlt_bool_false by lra. intros Q.
    replace (Rlt_bool (if f then - B2R w else B2R w) 0) with f in Q.
    + destruct v as [|s| |]; cbn in Q; try discriminate. now injection Q as ->.
    + symmetry. destruct f; [apply Rlt_bool_true|apply Rlt_bool_false]; lra.
Qed.

Section S.
Variable res : b64.
Hypothesis Fres : is_finite res = true.
Hypothesis Pos : (0 < B2R res)%R.

Definition scaled32 (f : bool) (m : dist) (v : b32) : Prop :=
  match m with
  | None => v = B754_infinity f
  | Some d =>
      if Rlt_dec (round32 (metric64 (B2R res) d)) (bpow radix2 128)
      then is_finite v = true /\ B2R v = (if f then - round32 (metric64 (B2R res) d) else round32 (metric64 (B2R res) d))%R
      else v = B754_infinity f
  end.

Lemma narrow_scaled (f : bool) m w : dle (Some 1) m -> scaled64 res m w ->
  scaled32 f m (b32_of_b64 (if f then Bopp w else w)).
Proof using Fres Pos.
  intros Hm Hw. pose proof (scaled64_cases res Fres Pos m w Hm Hw) as C.
  destruct m as [d|]; [|cbn in Hw |- *; subst w; now destruct f].
  cbn [scaled64 scaled32] in *. destruct (Rlt_dec (metric64 (B2R res) d) (bpow radix2 1024)) as [L|L].
  - destruct Hw as (Fw & Rw). destruct C as [C|(mm & e & H & C)]; [subst w; discriminate|].
    pose proof (narrow f mm e H) as Q. cbv zeta in Q. rewrite <- C, Rw in Q. exact Q.
  - subst w. assert (G : (bpow radix2 128 <= round32 (metric64 (B2R res) d))%R).
    { rewrite <- (rnd32_id (bpow radix2 128)) by (apply fmt32_bpow; lia). apply round32_le.
      apply Rle_trans with (bpow radix2 1024); [apply bpow_le; lia|lra]. }
    destruct (Rlt_dec _ _); [lra|]. now destruct f.
Qed.

Hypothesis Pres : (bpow radix2 (-150) < B2R res)%R.

Lemma scaled32_sign (f : bool) m v : dle (Some 1) m -> scaled32 f m v ->
  (if f then b32_ge0 v = false /\ b32_le0 v = true else b32_ge0 v = true).
Proof using Fres Pres Pos.
  intros Hm Hv. destruct m as [d|]; [|cbn in Hv; subst v; now destruct f].
  cbn [scaled32] in Hv. destruct (Rlt_dec _ _) as [L|L]; [|subst v; now destruct f].
  destruct Hv as (Fv & Rv). cbn in Hm. pose proof (metric64_ge res Fres Pos d Hm) as G.
  assert (P : (bpow radix2 (-149) <= round32 (metric64 (B2R res) d))%R) by (apply round32_tiny; lra).
  pose proof (bpow_gt_0 radix2 (-149)). unfold b32_ge0, b32_le0, b32_leb.
  destruct f; rewrite !Bleb_correct by easy; rewrite Rv; cbn [B2R].
  - split; [apply Rle_bool_false|apply Rle_bool_true]; lra.
  - apply Rle_bool_true; lra.
Qed.

Lemma combine_value32 (f : bool) (a b : b64) m :
  dle (Some 1) m -> b64_rep (if f then a else b) (Some 0) -> b64_rep (if f then b else a) m ->
  scaled32 f m (b32_combine res a b).
Proof using Fres Pos.
  intros Hm R0 Rm. destruct (combine_value res Fres Pos f a b m Hm R0 Rm) as [w [Hw E]].
  unfold b32_combine. rewrite E. now apply narrow_scaled.
Qed.

Lemma signed32_of f (T : idx -> Prop) i v : ~ T i ->
  signed binary64 b64_rep b32 (b32_combine res) f T i v ->
  is_signed_distance32 (B2R res) f T i v.
Proof using Fres Pos.
  intros NT [a [b [m [-> [Hn [R0 Rm]]]]]]. exists m. split; [exact Hn|].
  assert (Hm : dle (Some 1) m) by (eapply nearest_ge1; eauto).
  exact (combine_value32 f a b m Hm R0 Rm).
Qed.

Lemma sdf_binary32_plain oob nx ny nz p :
  0 < nx <= B25 - 2 -> 0 < ny <= B25 - 2 -> 0 < nz <= B25 - 2 ->
  exists g, sdf_binary32 res oob true false nx ny nz p = Some g /\ gwf g /\
    g_nx g = nx /\ g_ny g = ny /\ g_nz g = nz /\
    is_sdf32 (B2R res) nx ny nz p (extra false nx ny nz) (gget g).
Proof using Fres Pos.
  intros Hx Hy Hz. unfold sdf_binary32, extract_grid.
  destruct (extract_signed binary64 b64_rep b64_bp _ _ binary64_ok) with
    (S := b32) (combine := b32_combine res) (oob := oob)
    (nx := nx) (ny := ny) (nz := nz) (p := p) as [g [E [W [Dx [Dy [Dz G]]]]]]; try lia.
  - cbn. split; reflexivity.
  - exists g. split; [exact E|]. split; [exact W|]. split; [exact Dx|]. split; [exact Dy|].
    split; [exact Dz|]. intros i Hi. destruct (G i Hi) as [v [Gv Sv]].
    exists v. split; [exact Gv|]. apply signed32_of.
    + intros [Q|Q]; [now apply opposite_irrefl in Q|]. now destruct Q.
    + eapply signed_ext; [|exact Sv]. intros j. unfold extra. cbn beta. intuition congruence.
Qed.

Lemma sdf_binary32_ok oob nx ny nz p (border : bool) :
  0 < nx <= B25 - 2 -> 0 < ny <= B25 - 2 -> 0 < nz <= B25 - 2 ->
  exists g, sdf_binary32 res oob true border nx ny nz p = Some g /\ gwf g /\
    g_nx g = nx /\ g_ny g = ny /\ g_nz g = nz /\
    is_sdf32 (B2R res) nx ny nz p (extra border nx ny nz) (gget g).
Proof using Fres Pres Pos.
  intros Hx Hy Hz.
  assert (L : forall n, 0 < n -> size_offset n <= 2) by (intros; unfold size_offset; destruct (1 <? n); lia).
  pose proof (L nx ltac:(lia)). pose proof (L ny ltac:(lia)). pose proof (L nz ltac:(lia)).
  unfold sdf_binary32, extract_grid. destruct border.
  - destruct (extract_border_signed binary64 b64_rep b64_bp _ _ binary64_ok) with
      (S := b32) (combine := b32_combine res) (oob := oob) (ge0 := b32_ge0) (le0 := b32_le0)
      (s0 := @B754_zero 24 128 false)
      (nx := nx) (ny := ny) (nz := nz) (p := p) as [g [E [W [Dx [Dy [Dz G]]]]]]; try lia.
    + cbn. split; reflexivity.
    + intros a b m R1 R2 Hm. exact (scaled32_sign false m _ Hm (combine_value32 false a b m Hm R1 R2)).
    + intros a b m R1 R2 Hm. exact (proj1 (scaled32_sign true m _ Hm (combine_value32 true a b m Hm R1 R2))).
    + intros a b m R1 R2 Hm. exact (proj2 (scaled32_sign true m _ Hm (combine_value32 true a b m Hm R1 R2))).
    + exists g. split; [exact E|]. split; [exact W|]. split; [exact Dx|]. split; [exact Dy|].
      split; [exact Dz|]. intros i Hi. destruct (G i Hi) as [v [Gv Sv]].
      exists v. split; [exact Gv|]. apply signed32_of.
      * intros [Q|Q]; [now apply opposite_irrefl in Q|]. destruct Q as [_ Q].
        destruct i as [[x y] z]. unfold in_shell in Q. tauto.
      * eapply signed_ext; [|exact Sv]. intros j. unfold extra. cbn beta. intuition congruence.
  - exact (sdf_binary32_plain oob nx ny nz p Hx Hy Hz).
Qed.
End S.

(** ** Accuracy *)

Definition u64 : R := bpow radix2 (-53).
Definition u32 : R := bpow radix2 (-24).

Lemma round64_rel x : (bpow radix2 (-1022) <= x)%R -> (Rabs (round64 x - x) <= u64 * x)%R.
Proof.
  intros H. assert (P : (0 < x)%R) by (pose proof (bpow_gt_0 radix2 (-1022)); lra).
  pose proof (relative_error_N_FLT radix2 (-1074) 53 ltac:(reflexivity) (fun z => negb (Z.even z)) x) as Q.
  rewrite Rabs_pos_eq in Q by lra. specialize (Q H).
  replace (u64 * x)%R with (/ 2 * bpow radix2 (-53 + 1) * x)%R; [exact Q|].
  unfold u64. rewrite bpow_plus. change (bpow radix2 1) with 2%R. lra.
Qed.

Lemma round32_rel x : (bpow radix2 (-126) <= x)%R -> (Rabs (round32 x - x) <= u32 * x)%R.
Proof.
  intros H. assert (P : (0 < x)%R) by (pose proof (bpow_gt_0 radix2 (-126)); lra).
  pose proof (relative_error_N_FLT radix2 (-149) 24 ltac:(reflexivity) (fun z => negb (Z.even z)) x) as Q.
  rewrite Rabs_pos_eq in Q by lra. specialize (Q H).
  replace (u32 * x)%R with (/ 2 * bpow radix2 (-24 + 1) * x)%R; [exact Q|].
  unfold u32. rewrite bpow_plus. change (bpow radix2 1) with 2%R. lra.
Qed.

Lemma sqrt_ge1 d : 1 <= d -> (1 <= sqrt (IZR d))%R.
Proof. intros H. rewrite <- sqrt_1. apply sqrt_le_1_alt. now apply IZR_le. Qed.

Lemma u64_pos : (0 < u64)%R. Proof. apply bpow_gt_0. Qed.
Lemma u32_pos : (0 < u32)%R. Proof. apply bpow_gt_0. Qed.

Lemma metric64_rel res d : (bpow radix2 (-1022) <= res)%R -> 1 <= d ->
  (Rabs (metric64 res d - res * sqrt (IZR d)) <= (2 * u64 + u64 * u64) * (res * sqrt (IZR d)))%R.
Proof.
  intros Hr Hd. assert (P : (0 < res)%R) by (pose proof (bpow_gt_0 radix2 (-1022)); lra).
  pose proof (sqrt_ge1 d Hd) as S1. set (s := sqrt (IZR d)) in *.
  assert (Q1 : (Rabs (round64 s - s) <= u64 * s)%R).
  { apply round64_rel. apply Rle_trans with (2 := S1). change 1%R with (bpow radix2 0). apply bpow_le. lia. }
  assert (G1 : (1 <= round64 s)%R).
  { unfold round64. apply round_ge_generic; [apply FLT_exp_valid; easy|apply valid_rnd_N| |exact S1].
    apply (fmt_Z 1); unfold P53; lia. }
  assert (Q2 : (Rabs (round64 (round64 s * res) - round64 s * res) <= u64 * (round64 s * res))%R).
  { apply round64_rel. apply Rle_trans with (1 := Hr). rewrite <- (Rmult_1_l res) at 1.
    apply Rmult_le_compat_r; lra. }
  unfold metric64. fold s. pose proof u64_pos as U. set (a := round64 s) in *. clearbody a s.
  set (b := round64 (a * res)) in *. clearbody b.
  apply Rabs_le_inv in Q1. apply Rabs_le_inv in Q2. apply Rabs_le.
  assert (A1 : (a * res <= (1 + u64) * (s * res))%R).
  { rewrite <- Rmult_assoc. apply Rmult_le_compat_r; lra. }
  assert (A2 : ((1 - u64) * (s * res) <= a * res)%R).
  { rewrite <- Rmult_assoc. apply Rmult_le_compat_r; lra. }
  assert (Sp : (0 < s * res)%R) by (apply Rmult_lt_0_compat; lra).
  assert (A3 : (u64 * (a * res) <= u64 * ((1 + u64) * (s * res)))%R) by (apply Rmult_le_compat_l; lra).
  replace (res * s)%R with (s * res)%R by ring. split; [|]; ring_simplify in A3; ring_simplify; nra.
Qed.

Lemma single_rel res d : (bpow radix2 (-126) <= res)%R -> generic_format radix2 (SpecFloat.fexp 53 1024) res -> 1 <= d ->
  (Rabs (round32 (metric64 res d) - res * sqrt (IZR d)) <= (u32 + 3 * u64) * (res * sqrt (IZR d)))%R.
Proof.
  intros Hr Ff Hd. assert (P : (0 < res)%R) by (pose proof (bpow_gt_0 radix2 (-126)); lra).
  assert (Hr' : (bpow radix2 (-1022) <= res)%R).
  { apply Rle_trans with (2 := Hr). apply bpow_le. lia. }
  pose proof (metric64_rel res d Hr' Hd) as Q1. pose proof (sqrt_ge1 d Hd) as S1.
  assert (G : (res <= metric64 res d)%R).
  { unfold metric64, round64. apply round_ge_generic; [apply FLT_exp_valid; easy|apply valid_rnd_N|exact Ff|].
    rewrite <- (Rmult_1_l res) at 1. apply Rmult_le_compat_r; [lra|].
    apply round_ge_generic; [apply FLT_exp_valid; easy|apply valid_rnd_N|apply (fmt_Z 1); unfold P53; lia|exact S1]. }
  pose proof (round32_rel (metric64 res d) ltac:(lra)) as Q2.
  set (t := (res * sqrt (IZR d))%R) in *. assert (Pt : (0 < t)%R) by (apply Rmult_lt_0_compat; lra). clearbody t.
  set (m := metric64 res d) in *. clearbody m. set (r := round32 m) in *. clearbody r.
  assert (U1 : (u64 = / 9007199254740992)%R) by (unfold u64; cbn; reflexivity).
  assert (U2 : (u32 = / 16777216)%R) by (unfold u32; cbn; reflexivity).
  rewrite U1, U2 in *. apply Rabs_le_inv in Q1. apply Rabs_le_inv in Q2. apply Rabs_le. lra.
Qed.

Lemma metric64_le res d d' : (0 <= res)%R -> d <= d' -> (metric64 res d <= metric64 res d')%R.
Proof.
  intros Hr Hd. unfold metric64, round64.
  apply round_le; [apply FLT_exp_valid; easy|apply valid_rnd_N|]. apply Rmult_le_compat_r; [exact Hr|].
  apply round_le; [apply FLT_exp_valid; easy|apply valid_rnd_N|]. apply sqrt_le_1_alt. now apply IZR_le.
Qed.

(** ** Order *)

(** A value of a field: [M d] is what is stored for the squared distance [d]. *)
Definition holds {prec emax} (M : Z -> R) (f : bool) (m : dist) (v : binary_float prec emax) : Prop :=
  match m with
  | None => v = B754_infinity f
  | Some d => if Rlt_dec (M d) (bpow radix2 emax)
              then is_finite v = true /\ B2R v = (if f then - M d else M d)%R
              else v = B754_infinity f
  end.

Lemma leb_inf {prec emax} (u v : binary_float prec emax) f :
  v = B754_infinity f -> is_nan u = false ->
  if f then Bleb v u = true else Bleb u v = true.
Proof. intros -> N. destruct f, u as [|[]| |[]]; try discriminate; reflexivity. Qed.

Lemma holds_not_nan {prec emax} (M : Z -> R) f m (v : binary_float prec emax) : holds M f m v -> is_nan v = false.
Proof.
  destruct m as [d|]; cbn; [|now intros ->]. destruct (Rlt_dec _ _); [|now intros ->]. intros (F & _). now destruct v.
Qed.

Lemma holds_mono {prec emax} (M : Z -> R) f m m' (v v' : binary_float prec emax) :
  (forall d d', d <= d' -> (M d <= M d')%R) -> dle m m' -> holds M f m v -> holds M f m' v' ->
  if f then Bleb v' v = true else Bleb v v' = true.
Proof.
  intros MM L H H'. pose proof (holds_not_nan M f m v H) as N. pose proof (holds_not_nan M f m' v' H') as N'.
  destruct m' as [d'|]; cbn in H'; [|now apply leb_inf].
  destruct (Rlt_dec (M d') _) as [T|T]; [|now apply leb_inf]. destruct H' as (F' & E').
  destruct m as [d|]; [|now cbn in L]. cbn in L, H. specialize (MM d d' L).
  destruct (Rlt_dec (M d) _) as [T2|T2]; [|lra]. destruct H as (F & E).
  destruct f; rewrite Bleb_correct by easy; rewrite E, E'; apply Rle_bool_true; lra.
Qed.

Lemma holds_cross {prec emax} (M : Z -> R) m m' (v v' : binary_float prec emax) :
  (forall d, (0 <= M d)%R) -> holds M true m v -> holds M false m' v' -> Bleb v v' = true.
Proof.
  intros P H H'. pose proof (holds_not_nan M true m v H) as N. pose proof (holds_not_nan M false m' v' H') as N'.
  destruct m' as [d'|]; cbn in H'; [|subst v'; now apply (leb_inf v _ false eq_refl)].
  destruct (Rlt_dec (M d') _) as [T|T]; [|subst v'; now apply (leb_inf v _ false eq_refl)]. destruct H' as (F' & E').
  destruct m as [d|]; cbn in H; [|subst v; now apply (leb_inf v' _ true eq_refl)].
  destruct (Rlt_dec (M d) _) as [T2|T2]; [|subst v; now apply (leb_inf v' _ true eq_refl)]. destruct H as (F & E).
  rewrite Bleb_correct by easy. rewrite E, E'. pose proof (P d). pose proof (P d'). apply Rle_bool_true; lra.
Qed.

Definition field_holds {prec emax} (M : Z -> R) nx ny nz (p : idx -> bool) (X : idx -> Prop)
    (f : idx -> option (binary_float prec emax)) : Prop :=
  forall i, in_box nx ny nz i -> exists v, f i = Some v /\ exists m,
    is_nearest (fun j => opposite nx ny nz p i j \/ X j) i m /\ holds M (p i) m v.

Lemma field_holds_mono {prec emax} (M : Z -> R) nx ny nz p q (X : idx -> Prop)
    (f h : idx -> option (binary_float prec emax)) i u v :
  (forall d, (0 <= M d)%R) -> (forall d d', d <= d' -> (M d <= M d')%R) ->
  field_holds M nx ny nz p X f -> field_holds M nx ny nz q X h ->
  (forall j, in_box nx ny nz j -> p j = true -> q j = true) ->
  in_box nx ny nz i -> f i = Some u -> h i = Some v -> Bleb v u = true.
Proof.
  intros MP MM Ff Fh PQ Hi Eu Ev.
  destruct (Ff i Hi) as [u' [Fu [mu [Nu Uu]]]]. rewrite Eu in Fu. injection Fu as <-.
  destruct (Fh i Hi) as [v' [Fv [mv [Nv Uv]]]]. rewrite Ev in Fv. injection Fv as <-.
  assert (PQi := PQ i Hi). destruct (p i) eqn:P, (q i) eqn:Q.
  - apply (holds_mono M true mu mv u v MM); try assumption. eapply is_nearest_incl; [|exact Nv|exact Nu].
    intros j [[Bj Oj]|Xj]; [|now right]. left. split; [easy|]. specialize (PQ j Bj).
    rewrite P. rewrite Q in Oj. destruct (p j), (q j); try easy; intuition congruence.
  - now discriminate PQi.
  - exact (holds_cross M mv mu v u MP Uv Uu).
  - apply (holds_mono M false mv mu v u MM); try assumption. eapply is_nearest_incl; [|exact Nu|exact Nv].
    intros j [[Bj Oj]|Xj]; [|now right]. left. split; [easy|]. specialize (PQ j Bj).
    rewrite Q. rewrite P in Oj. destruct (p j), (q j); try easy; intuition congruence.
Qed.

Lemma metric64_nonneg res d : (0 <= res)%R -> (0 <= metric64 res d)%R.
Proof.
  intros H. unfold metric64, round64. rewrite <- (round_0 radix2 (SpecFloat.fexp 53 1024) ZnearestE).
  apply round_le; [apply FLT_exp_valid; easy|apply valid_rnd_N|]. apply Rmult_le_pos; [|exact H].
  rewrite <- (round_0 radix2 (SpecFloat.fexp 53 1024) ZnearestE).
  apply round_le; [apply FLT_exp_valid; easy|apply valid_rnd_N|]. apply sqrt_pos.
Qed.

(** ** Both fields *)

Lemma not_target nx ny nz p border i : in_box nx ny nz i ->
  ~ (opposite nx ny nz p i i \/ extra border nx ny nz i).
Proof.
  intros Hi [H|[_ H]]; [now apply opposite_irrefl in H|]. destruct i as [[x y] z]. unfold in_shell in H. tauto.
Qed.

Lemma scaled32_unique res f m v v' : is_finite res = true -> (bpow radix2 (-150) < B2R res)%R ->
  dle (Some 1) m -> scaled32 res f m v -> scaled32 res f m v' -> v = v'.
Proof.
  intros Fr Pr Hm H H'. assert (Pos : (0 < B2R res)%R) by (pose proof (bpow_gt_0 radix2 (-150)); lra).
  destruct m as [d|]; cbn in H, H'; [|congruence]. destruct (Rlt_dec _ _); [|congruence].
  destruct H as (F & E), H' as (F' & E'). cbn in Hm. pose proof (metric64_ge res Fr Pos d Hm) as G.
  assert (P : (bpow radix2 (-149) <= round32 (metric64 (B2R res) d))%R) by (apply round32_tiny; lra).
  pose proof (bpow_gt_0 radix2 (-149)).
  apply B2R_inj.
  - destruct v as [s| | |]; try easy. exfalso. cbn in E. destruct f; lra.
  - destruct v' as [s| | |]; try easy. exfalso. cbn in E'. destruct f; lra.
  - now rewrite E, E'.
Qed.

Lemma single_is_narrowed_double (res : b64) oob oob' nx ny nz p (border : bool) g g' i :
  is_finite res = true -> (bpow radix2 (-150) < B2R res)%R ->
  0 < nx <= B25 - 2 -> 0 < ny <= B25 - 2 -> 0 < nz <= B25 - 2 ->
  sdf_binary32 res oob true border nx ny nz p = Some g ->
  sdf_binary64 res oob' true border nx ny nz p = Some g' ->
  in_box nx ny nz i -> gget g i = option_map b32_of_b64 (gget g' i).
Proof.
  intros Fr Pr Hx Hy Hz E E' Hi. assert (Pos : (0 < B2R res)%R) by (pose proof (bpow_gt_0 radix2 (-150)); lra).
  destruct (sdf_binary32_ok res Fr Pos Pr oob nx ny nz p border Hx Hy Hz) as (g1 & E1 & _ & _ & _ & _ & G1).
  rewrite E in E1. injection E1 as <-.
  destruct (sdf_binary64_ok res Fr Pos oob' nx ny nz p border Hx Hy Hz) as (g2 & E2 & _ & _ & _ & _ & G2).
  rewrite E' in E2. injection E2 as <-.
  destruct (G1 i Hi) as (v & Gv & m & Hm & Hv). destruct (G2 i Hi) as (v' & Gv' & m' & Hm' & Hv').
  rewrite Gv, Gv'. cbn [option_map]. f_equal. rewrite <- (is_nearest_unique _ _ _ _ Hm Hm') in Hv'. clear m' Hm'.
  assert (H1 : dle (Some 1) m) by exact (nearest_ge1 _ i m (not_target nx ny nz p border i Hi) Hm).
  apply (scaled32_unique res (p i) m v _ Fr Pr H1 Hv).
  replace v' with (if p i then Bopp (if p i then Bopp v' else v') else (if p i then Bopp v' else v'))
    by (destruct (p i); [apply Bopp_involutive|reflexivity]).
  apply (narrow_scaled res Fr Pos (p i) m); [exact H1|].
  destruct m as [d|]; cbn [scaled64].
  - destruct (Rlt_dec (metric64 (B2R res) d) (bpow radix2 1024)); [|subst v'; now destruct (p i)]. destruct Hv' as (F & B). destruct (p i); [|easy].
    rewrite is_finite_Bopp, B2R_Bopp, B. split; [exact F|]. lra.
  - subst v'. now destruct (p i).
Qed.

Lemma single_sign (res : b64) oob nx ny nz p (border : bool) g i v :
  is_finite res = true -> (bpow radix2 (-150) < B2R res)%R ->
  0 < nx <= B25 - 2 -> 0 < ny <= B25 - 2 -> 0 < nz <= B25 - 2 ->
  sdf_binary32 res oob true border nx ny nz p = Some g -> in_box nx ny nz i -> gget g i = Some v ->
  if p i then Bltb v (B754_zero false) = true else Bltb (B754_zero false) v = true.
Proof.
  intros Fr Pr Hx Hy Hz E Hi Gv. assert (Pos : (0 < B2R res)%R) by (pose proof (bpow_gt_0 radix2 (-150)); lra).
  destruct (sdf_binary32_ok res Fr Pos Pr oob nx ny nz p border Hx Hy Hz) as (g1 & E1 & _ & _ & _ & _ & G1).
  rewrite E in E1. injection E1 as <-. destruct (G1 i Hi) as (v' & Gv' & m & Hm & Hv).
  rewrite Gv in Gv'. injection Gv' as <-.
  assert (H1 : dle (Some 1) m) by exact (nearest_ge1 _ i m (not_target nx ny nz p border i Hi) Hm).
  destruct m as [d|]; [|subst v; now destruct (p i)].
  destruct (Rlt_dec _ _); [|subst v; now destruct (p i)]. destruct Hv as (F & B). cbn in H1.
  pose proof (metric64_ge res Fr Pos d H1) as G.
  assert (P : (bpow radix2 (-149) <= round32 (metric64 (B2R res) d))%R) by (apply round32_tiny; lra).
  pose proof (bpow_gt_0 radix2 (-149)).
  destruct (p i); rewrite Bltb_correct by easy; rewrite B; cbn [B2R]; apply Rlt_bool_true; lra.
Qed.
