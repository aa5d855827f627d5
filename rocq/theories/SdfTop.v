(** The laws of SdfLaws.v about the generated fields. *)
From Coq Require Import ZArith Reals List Lia Lra Bool.
From Flocq Require Import Core BinarySingleNaN.
From Verif Require Import Util Grid EdtModel FloatModel EdtSpec EdtFloat SdfModel SdfSpec SdfProofs SdfLaws
  SdfMapProofs SdfFloatSpec SdfFloatProofs.
Local Open Scope Z_scope.

Section T.
Variables (res : R) (nx ny nz : Z).
Hypothesis Hr : (0 < res)%R.
Hypothesis Hx : 0 < nx.
Hypothesis Hy : 0 < ny.
Hypothesis Hz : 0 < nz.

Lemma sdf_field filled border g : sdf_exact res true border nx ny nz filled = Some g ->
  field res nx ny nz filled (extra border nx ny nz) (gget g).
Proof.
  intros E. destruct (sdf_exact_ok res nx ny nz filled border Hr Hx Hy Hz) as [g' [E' [_ [_ [_ [_ F]]]]]].
  rewrite E in E'. injection E' as <-. now apply field_of.
Qed.
End T.

Lemma sdf_sign res nx ny nz (filled : idx -> bool) (border : bool) g i v :
  (0 < res)%R -> 0 < nx -> 0 < ny -> 0 < nz ->
  sdf_exact res true border nx ny nz filled = Some g -> in_box nx ny nz i -> gget g i = Some v ->
  (filled i = true -> xle v (XFin (- res))) /\ (filled i = false -> xle (XFin res) v).
Proof.
  intros Hr Hx Hy Hz E Hi Hv. apply sdf_field in E; try easy.
  eapply (field_sign res nx ny nz Hr); eauto. apply shell_out.
Qed.

Lemma sdf_uniform res nx ny nz (filled : idx -> bool) g i v :
  (0 < res)%R -> 0 < nx -> 0 < ny -> 0 < nz ->
  sdf_exact res true false nx ny nz filled = Some g -> in_box nx ny nz i -> gget g i = Some v ->
  ((forall j, in_box nx ny nz j -> filled j = false) -> v = XPInf) /\
  ((forall j, in_box nx ny nz j -> filled j = true) -> v = XNInf) /\
  ((exists j, in_box nx ny nz j /\ filled j = true) -> (exists k, in_box nx ny nz k /\ filled k = false) ->
   exists r, v = XFin r).
Proof.
  intros Hr Hx Hy Hz E Hi Hv. apply sdf_field in E; try easy.
  split; [|split].
  - intros H. destruct (E i Hi) as [v' [Fv [m [Hm ->]]]]. rewrite Hv in Fv. injection Fv as ->.
    rewrite (H i Hi). destruct m as [d|]; [|easy]. exfalso. destruct Hm as [[j [[[Hj Hne]|[? _]] _]] _]; [|easy].
    rewrite (H i Hi), (H j Hj) in Hne. easy.
  - intros H. destruct (E i Hi) as [v' [Fv [m [Hm ->]]]]. rewrite Hv in Fv. injection Fv as ->.
    rewrite (H i Hi). destruct m as [d|]; [|easy]. exfalso. destruct Hm as [[j [[[Hj Hne]|[? _]] _]] _]; [|easy].
    rewrite (H i Hi), (H j Hj) in Hne. easy.
  - intros [j [Hj Pj]] [k [Hk Pk]].
    exact (field_finite res nx ny nz filled _ _ E i j k v Hi Hv Hj Pj Hk Pk).
Qed.

Lemma sdf_lipschitz res nx ny nz (filled : idx -> bool) (border : bool) g i j u v :
  (0 < res)%R -> 0 < nx -> 0 < ny -> 0 < nz ->
  sdf_exact res true border nx ny nz filled = Some g ->
  in_box nx ny nz i -> in_box nx ny nz j -> gget g i = Some (XFin u) -> gget g j = Some (XFin v) ->
  (filled i = filled j -> (Rabs (u - v) <= cell_dist res i j)%R) /\
  (filled i <> filled j -> (Rabs (u - v) <= 2 * cell_dist res i j)%R).
Proof.
  intros Hr Hx Hy Hz E Hi Hj Hu Hv. apply sdf_field in E; try easy.
  eapply field_lipschitz; eauto.
Qed.

Lemma sdf_monotone res nx ny nz (a b : idx -> bool) (border : bool) ga gb i u v :
  (0 < res)%R -> 0 < nx -> 0 < ny -> 0 < nz ->
  sdf_exact res true border nx ny nz a = Some ga -> sdf_exact res true border nx ny nz b = Some gb ->
  (forall j, in_box nx ny nz j -> a j = true -> b j = true) ->
  in_box nx ny nz i -> gget ga i = Some u -> gget gb i = Some v -> xle v u.
Proof.
  intros Hr Hx Hy Hz Ea Eb Hab Hi Hu Hv. apply sdf_field in Ea; try easy. apply sdf_field in Eb; try easy.
  eapply (field_mono res nx ny nz Hr a b); eauto. apply shell_out.
Qed.

Lemma sdf_sign_binary64 (res oob : b64) nx ny nz (filled : idx -> bool) (border : bool) g i v :
  is_finite res = true -> (0 < B2R res)%R ->
  0 < nx <= B25 - 2 -> 0 < ny <= B25 - 2 -> 0 < nz <= B25 - 2 ->
  sdf_binary64 res oob true border nx ny nz filled = Some g -> in_box nx ny nz i -> gget g i = Some v ->
  (filled i = true -> b64_leb v (Bopp res) = true) /\ (filled i = false -> b64_leb res v = true).
Proof.
  intros Hf Hr Hx Hy Hz E Hi Hv.
  destruct (sdf_binary64_ok res Hf Hr oob nx ny nz filled border Hx Hy Hz) as [g' [E' [_ [_ [_ [_ F]]]]]].
  rewrite E in E'. injection E' as <-. destruct (F i Hi) as [v' [Fv [m [Hm Q]]]].
  rewrite Hv in Fv. injection Fv as <-.
  assert (NT : ~ (opposite nx ny nz filled i i \/ extra border nx ny nz i)).
  { intros [H|H]; [now apply opposite_irrefl in H|]. now apply shell_out in H. }
  assert (H1 : dle (Some 1) m) by exact (nearest_ge1 _ i m NT Hm).
  assert (Fo : is_finite (Bopp res) = true) by now rewrite is_finite_Bopp.
  assert (Inf : v = B754_infinity (filled i) ->
    (filled i = true -> b64_leb v (Bopp res) = true) /\ (filled i = false -> b64_leb res v = true)).
  { intros Hinf. split; intros P; rewrite P in Hinf; subst v.
    - apply leb_ninf. unfold b64_bp. clear -Fo. now destruct (Bopp res).
    - apply leb_pinf. unfold b64_bp. clear -Hf. now destruct res. }
  destruct m as [d|]; [|now apply Inf].
  destruct (Rlt_dec _ _); [|now apply Inf]. cbn in H1. clear Inf.
  destruct Q as [Fv Rv]. pose proof (metric64_ge res Hf Hr d H1) as G.
  split; intros P; rewrite P in Rv.
  - rewrite leb_fin by easy. apply Rle_bool_iff. rewrite B2R_Bopp, Rv. lra.
  - rewrite leb_fin by easy. apply Rle_bool_iff. rewrite Rv. lra.
Qed.
