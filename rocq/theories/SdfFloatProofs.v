(** The double-precision signed distance field. *)
From Coq Require Import ZArith Reals List Lia Lra Bool.
From Flocq Require Import Core BinarySingleNaN.
From Verif Require Import Util Grid Prog Schedule EdtModel FloatModel EdtSpec EdtLineProofs EdtProofs
  EdtFloat SdfModel SdfSpec SdfProofs SdfLaws SdfFloatSpec.
Local Open Scope Z_scope.

Section S.
Variable res : b64.
Hypothesis Fres : is_finite res = true.
Hypothesis Pres : (0 < B2R res)%R.

Lemma res_cases : exists m e H, res = B754_finite false m e H.
Proof.
  destruct res as [s|s| |s m e H]; try discriminate.
  - cbn in Pres. lra.
  - destruct s; [|eauto]. exfalso. cbn in Pres.
    pose proof (F2R_lt_0 radix2 (Float radix2 (Zneg m) e) eq_refl) as L. cbn in L. lra.
Qed.

Lemma scaled_zero a : b64_rep a (Some 0) -> exists s, b64_mul (b64_sqrt a) res = B754_zero s.
Proof.
  intros [Fa Ra]. destruct a as [s|s| |s m e H]; try discriminate.
  - destruct res_cases as [m [e [H E]]]. rewrite E. cbn. eauto.
  - exfalso. cbn in Ra. destruct s.
    + pose proof (F2R_lt_0 radix2 (Float radix2 (Zneg m) e) eq_refl) as L. cbn in L, Ra. lra.
    + pose proof (F2R_gt_0 radix2 (Float radix2 (Zpos m) e) eq_refl) as L. cbn in L, Ra. lra.
Qed.

(** The unsigned value: positive and at least the resolution. *)
Definition scaled64 (m : dist) (w : b64) : Prop :=
  match m with
  | None => w = B754_infinity false
  | Some d => if Rlt_dec (metric64 (B2R res) d) (bpow radix2 1024)
              then is_finite w = true /\ B2R w = metric64 (B2R res) d
              else w = B754_infinity false
  end.

Lemma metric64_ge d : 1 <= d -> (B2R res <= metric64 (B2R res) d)%R.
Proof.
  intros Hd. unfold metric64, round64.
  assert (Vr : Valid_rnd ZnearestE) by apply valid_rnd_N.
  assert (Ve : Valid_exp (SpecFloat.fexp 53 1024)) by (apply FLT_exp_valid; easy).
  assert (H1 : (1 <= round radix2 (SpecFloat.fexp 53 1024) ZnearestE (sqrt (IZR d)))%R).
  { apply round_ge_generic; [easy|easy|apply (fmt_Z 1); unfold P53; lia|].
    rewrite <- sqrt_1. apply sqrt_le_1_alt. now apply IZR_le. }
  apply round_ge_generic; [easy|easy|apply generic_format_B2R|].
  rewrite <- (Rmult_1_l (B2R res)) at 1. apply Rmult_le_compat_r; lra.
Qed.

Lemma scaled_pos b m : b64_rep b m -> dle (Some 1) m -> scaled64 m (b64_mul (b64_sqrt b) res).
Proof.
  intros Rb Hm. destruct m as [d|].
  - destruct Rb as [Fb Rb]. cbn in Hm.
    assert (Hd : (0 < IZR d)%R) by (apply IZR_lt; lia).
    destruct (Bsqrt_correct 53 1024 prec53 emax1024 mode_NE b) as [S1 [S2 S3]].
    assert (Fs : is_finite (b64_sqrt b) = true /\ Bsign (b64_sqrt b) = false).
    { unfold b64_sqrt. destruct b as [s|s| |s mm e H]; try discriminate.
      - cbn in Rb. lra.
      - destruct s.
        + exfalso. pose proof (F2R_lt_0 radix2 (Float radix2 (Zneg mm) e) eq_refl) as L. cbn in L, Rb. lra.
        + split; [exact S2|]. rewrite S3; [easy|]. clear -S2. now destruct (Bsqrt _ _). }
    destruct Fs as [Fs Ss].
    pose proof (Bmult_correct 53 1024 prec53 emax1024 mode_NE (b64_sqrt b) res) as Q.
    assert (Es : B2R (b64_sqrt b) = round64 (sqrt (IZR d))).
    { unfold b64_sqrt. rewrite S1, Rb. reflexivity. }
    rewrite Es in Q. change (round_mode mode_NE) with ZnearestE in Q.
    change (round radix2 (SpecFloat.fexp 53 1024) ZnearestE (round64 (sqrt (IZR d)) * B2R res))
      with (metric64 (B2R res) d) in Q.
    rewrite Rabs_pos_eq in Q by (pose proof (metric64_ge d Hm); lra).
    cbn [scaled64]. destruct (Rlt_dec (metric64 (B2R res) d) (bpow radix2 1024)) as [L|L].
    + rewrite Rlt_bool_true in Q by exact L. destruct Q as [Q1 [Q2 _]]. unfold b64_mul.
      split; [rewrite Q2, Fs, Fres; easy|exact Q1].
    + rewrite Rlt_bool_false in Q by lra. unfold b64_mul. rewrite Ss in Q.
      destruct res_cases as [m' [e' [H' E']]]. rewrite E' in Q at 2. cbn in Q.
      destruct (Bmult mode_NE (b64_sqrt b) res); cbn in Q; congruence.
  - cbn in Rb |- *. subst b. destruct res_cases as [m' [e' [H' E']]]. rewrite E'. reflexivity.
Qed.

Lemma scaled64_cases m (w : b64) : dle (Some 1) m -> scaled64 m w ->
  w = B754_infinity false \/ exists mm e H, w = B754_finite false mm e H.
Proof.
  intros Hm H. destruct m as [d|]; [|left; exact H]. cbn in H, Hm.
  destruct (Rlt_dec _ _); [|now left]. destruct H as [Fw Rw]. right.
  pose proof (metric64_ge d Hm) as G.
  destruct w as [s|s| |s mm e H]; try discriminate.
  - cbn in Rw. lra.
  - destruct s; [|eauto]. exfalso.
    pose proof (F2R_lt_0 radix2 (Float radix2 (Zneg mm) e) eq_refl) as L. cbn in L, Rw. lra.
Qed.

Lemma combine_value (f : bool) (a b : b64) m :
  dle (Some 1) m -> b64_rep (if f then a else b) (Some 0) -> b64_rep (if f then b else a) m ->
  exists w, scaled64 m w /\ b64_combine res a b = if f then Bopp w else w.
Proof.
  intros Hm R0 Rm. destruct (scaled_zero _ R0) as [s Hs]. pose proof (scaled_pos _ _ Rm Hm) as Hw.
  exists (b64_mul (b64_sqrt (if f then b else a)) res). split; [exact Hw|].
  unfold b64_combine. pose proof (scaled64_cases _ _ Hm Hw) as C.
  destruct f; rewrite Hs; destruct C as [C|[mm [e [H C]]]]; rewrite C; reflexivity.
Qed.

Lemma signed64_of f (T : idx -> Prop) i v : ~ T i ->
  signed binary64 b64_rep b64 (b64_combine res) f T i v ->
  is_signed_distance64 (B2R res) f T i v.
Proof.
  intros NT [a [b [m [-> [Hn [R0 Rm]]]]]]. exists m. split; [exact Hn|].
  assert (Hm : dle (Some 1) m) by (eapply nearest_ge1; eauto).
  destruct (combine_value f a b m Hm R0 Rm) as [w [Hw ->]].
  destruct m as [d|]; cbn in Hw.
  - destruct (Rlt_dec _ _).
    + destruct Hw as [Fw Rw]. destruct f; [|easy]. rewrite is_finite_Bopp, B2R_Bopp. now rewrite Rw.
    + subst w. now destruct f.
  - subst w. now destruct f.
Qed.

Lemma sdf_binary64_ok oob nx ny nz p (border : bool) :
  0 < nx <= B25 - 2 -> 0 < ny <= B25 - 2 -> 0 < nz <= B25 - 2 ->
  exists g, sdf_binary64 res oob true border nx ny nz p = Some g /\ gwf g /\
    g_nx g = nx /\ g_ny g = ny /\ g_nz g = nz /\
    is_sdf64 (B2R res) nx ny nz p (extra border nx ny nz) (gget g).
Proof.
  intros Hx Hy Hz.
  assert (L : forall n, 0 < n -> size_offset n <= 2) by (intros; unfold size_offset; destruct (1 <? n); lia).
  pose proof (L nx ltac:(lia)). pose proof (L ny ltac:(lia)). pose proof (L nz ltac:(lia)).
  unfold sdf_binary64, extract_grid. destruct border.
  - destruct (extract_border_signed binary64 b64_rep b64_bp _ _ binary64_ok) with
      (S := b64) (combine := b64_combine res) (oob := oob) (ge0 := b64_ge0) (le0 := b64_le0) (s0 := b64_zero)
      (nx := nx) (ny := ny) (nz := nz) (p := p) as [g [E [W [Dx [Dy [Dz G]]]]]]; try lia.
    + cbn. split; reflexivity.
    + intros a b m R1 R2 Hm. destruct (combine_value false a b m Hm R1 R2) as [w [Hw ->]].
      destruct (scaled64_cases _ _ Hm Hw) as [->|[mm [e [H' ->]]]]; reflexivity.
    + intros a b m R1 R2 Hm. destruct (combine_value true a b m Hm R1 R2) as [w [Hw ->]].
      destruct (scaled64_cases _ _ Hm Hw) as [->|[mm [e [H' ->]]]]; reflexivity.
    + intros a b m R1 R2 Hm. destruct (combine_value true a b m Hm R1 R2) as [w [Hw ->]].
      destruct (scaled64_cases _ _ Hm Hw) as [->|[mm [e [H' ->]]]]; reflexivity.
    + exists g. split; [exact E|]. split; [exact W|]. split; [exact Dx|]. split; [exact Dy|].
      split; [exact Dz|]. intros i Hi. destruct (G i Hi) as [v [Gv Sv]].
      exists v. split; [exact Gv|]. apply signed64_of.
      * intros [Q|Q]; [now apply opposite_irrefl in Q|]. destruct Q as [_ Q].
        destruct i as [[x y] z]. unfold in_shell in Q. tauto.
      * eapply signed_ext; [|exact Sv]. intros j. unfold extra. cbn beta. intuition congruence.
  - destruct (extract_signed binary64 b64_rep b64_bp _ _ binary64_ok) with
      (S := b64) (combine := b64_combine res) (oob := oob)
      (nx := nx) (ny := ny) (nz := nz) (p := p) as [g [E [W [Dx [Dy [Dz G]]]]]]; try lia.
    + cbn. split; reflexivity.
    + exists g. split; [exact E|]. split; [exact W|]. split; [exact Dx|]. split; [exact Dy|].
      split; [exact Dz|]. intros i Hi. destruct (G i Hi) as [v [Gv Sv]].
      exists v. split; [exact Gv|]. apply signed64_of.
      * intros [Q|Q]; [now apply opposite_irrefl in Q|]. now destruct Q.
      * eapply signed_ext; [|exact Sv]. intros j. unfold extra. cbn beta. intuition congruence.
Qed.
End S.
