(** Consequences of the specification of signed distance fields. *)
From Coq Require Import ZArith Reals List Lia Lra Bool Psatz.
From Verif Require Import Grid EdtSpec EdtLineProofs SdfModel SdfSpec SdfProofs.
Import ListNotations.
Local Open Scope Z_scope.

(** Both kinds of field at once: [X] are extra targets, opposite to every cell. *)
Definition field (res : R) (nx ny nz : Z) (p : idx -> bool) (X : idx -> Prop) (f : idx -> option xr) : Prop :=
  forall i, in_box nx ny nz i ->
    exists v, f i = Some v /\
      is_signed_distance res (p i) (fun j => opposite nx ny nz p i j \/ X j) i v.

Definition extra (border : bool) (nx ny nz : Z) (j : idx) : Prop :=
  border = true /\ in_shell nx ny nz j.

Lemma signed_distance_ext res f (T T' : idx -> Prop) i v : (forall j, T j <-> T' j) ->
  is_signed_distance res f T i v -> is_signed_distance res f T' i v.
Proof. intros E [m [Hm Hv]]. exists m. split; [eapply is_nearest_ext; eauto|easy]. Qed.

Lemma field_of (border : bool) res nx ny nz p f :
  (if border then is_bordered_sdf res nx ny nz p f else is_sdf res nx ny nz p f) ->
  field res nx ny nz p (extra border nx ny nz) f.
Proof.
  intros H i Hi. destruct border; destruct (H i Hi) as [v [Fv Sv]]; exists v; (split; [exact Fv|]);
    (eapply signed_distance_ext; [|exact Sv]); unfold extra; cbn beta; intuition congruence.
Qed.

Section Laws.
Variables (res : R) (nx ny nz : Z).
Hypothesis Hres : (0 < res)%R.

Lemma metric_mono m m' : dle m m' -> xle (metric res m) (metric res m').
Proof.
  destruct m as [d|], m' as [d'|]; cbn; try easy. intros H.
  apply Rmult_le_compat_l; [lra|]. apply sqrt_le_1_alt. now apply IZR_le.
Qed.

Lemma xle_opp a b : xle a b -> xle (xopp b) (xopp a).
Proof. destruct a, b; cbn; try easy. lra. Qed.

Lemma metric_nonneg m : xle (XFin 0) (metric res m).
Proof.
  destruct m as [d|]; cbn; [|easy]. apply Rmult_le_pos; [lra|apply sqrt_pos].
Qed.

Lemma xle_trans a b c : xle a b -> xle b c -> xle a c.
Proof. destruct a, b, c; cbn; try easy. lra. Qed.

Section One.
Variables (p : idx -> bool) (X : idx -> Prop) (f : idx -> option xr).
Hypothesis HX : forall j, X j -> ~ in_box nx ny nz j.
Hypothesis F : field res nx ny nz p X f.

Lemma not_target i : in_box nx ny nz i -> ~ (opposite nx ny nz p i i \/ X i).
Proof. intros Hi [H|H]; [now apply opposite_irrefl in H|now apply HX in H]. Qed.

(** C05 *)
Lemma field_sign i v : in_box nx ny nz i -> f i = Some v ->
  (p i = true -> xle v (XFin (- res))) /\ (p i = false -> xle (XFin res) v).
Proof.
  intros Hi Fv. destruct (F i Hi) as [v' [Fv' [m [Hm E]]]]. rewrite Fv in Fv'. injection Fv' as <-.
  assert (H1 : dle (Some 1) m) by (eapply nearest_ge1; [|exact Hm]; now apply not_target).
  pose proof (metric_ge res m Hres H1) as Q. subst v.
  split; intros ->; destruct (metric res m); cbn in *; try easy; lra.
Qed.

(** C06 *)
Lemma field_finite i j k v : in_box nx ny nz i -> f i = Some v ->
  in_box nx ny nz j -> p j = true -> in_box nx ny nz k -> p k = false ->
  exists r, v = XFin r.
Proof.
  intros Hi Fv Hj Pj Hk Pk. destruct (F i Hi) as [v' [Fv' [m [Hm E]]]]. rewrite Fv in Fv'. injection Fv' as <-.
  destruct m as [d|].
  - subst v. destruct (p i); cbn; eauto.
  - exfalso. cbn in Hm. destruct (p i) eqn:P.
    + apply (Hm k). left. split; [easy|congruence].
    + apply (Hm j). left. split; [easy|congruence].
Qed.
End One.

(** C08 *)
Lemma field_mono p q (X : idx -> Prop) f h i u v :
  (forall j, X j -> ~ in_box nx ny nz j) ->
  field res nx ny nz p X f -> field res nx ny nz q X h ->
  (forall j, in_box nx ny nz j -> p j = true -> q j = true) ->
  in_box nx ny nz i -> f i = Some u -> h i = Some v -> xle v u.
Proof.
  intros HX Ff Fh PQ Hi Eu Ev.
  destruct (Ff i Hi) as [u' [Fu [mu [Nu Uu]]]]. rewrite Eu in Fu. injection Fu as <-.
  destruct (Fh i Hi) as [v' [Fv [mv [Nv Uv]]]]. rewrite Ev in Fv. injection Fv as <-.
  assert (PQi := PQ i Hi). destruct (p i) eqn:P, (q i) eqn:Q.
  - subst. apply xle_opp, metric_mono. eapply is_nearest_incl; [|exact Nv|exact Nu].
    intros j [[Bj Oj]|Xj]; [|now right]. left. split; [easy|]. specialize (PQ j Bj).
    rewrite P. rewrite Q in Oj. destruct (p j), (q j); try easy; intuition congruence.
  - now discriminate PQi.
  - subst. eapply xle_trans; [apply (xle_opp (XFin 0)), metric_nonneg|].
    cbn [xopp]. rewrite Ropp_0. apply metric_nonneg.
  - subst. apply metric_mono. eapply is_nearest_incl; [|exact Nu|exact Nv].
    intros j [[Bj Oj]|Xj]; [|now right]. left. split; [easy|]. specialize (PQ j Bj).
    rewrite Q. rewrite P in Oj. destruct (p j), (q j); try easy; intuition congruence.
Qed.
End Laws.

(** ** Lipschitz *)

Lemma sum_sq_nonneg a b c : (0 <= a * a + b * b + c * c)%R.
Proof. nra. Qed.

Lemma triangle3 a b c x y z :
  (sqrt ((a + x) * (a + x) + (b + y) * (b + y) + (c + z) * (c + z)) <=
   sqrt (a * a + b * b + c * c) + sqrt (x * x + y * y + z * z))%R.
Proof.
  set (A := (a * a + b * b + c * c)%R). set (B := (x * x + y * y + z * z)%R).
  assert (HA : (0 <= A)%R) by apply sum_sq_nonneg. assert (HB : (0 <= B)%R) by apply sum_sq_nonneg.
  assert (D : (a * x + b * y + c * z <= sqrt A * sqrt B)%R).
  { rewrite <- sqrt_mult by easy. apply Rsqr_incr_0_var; [|apply sqrt_pos].
    rewrite Rsqr_sqrt by now apply Rmult_le_pos. unfold Rsqr, A, B.
    pose proof (Rle_0_sqr (a * y - b * x)) as S1. pose proof (Rle_0_sqr (a * z - c * x)) as S2.
    pose proof (Rle_0_sqr (b * z - c * y)) as S3. unfold Rsqr in *. nra. }
  apply Rsqr_incr_0_var; [|pose proof (sqrt_pos A); pose proof (sqrt_pos B); lra].
  rewrite Rsqr_sqrt by apply sum_sq_nonneg. unfold Rsqr.
  pose proof (sqrt_sqrt A HA). pose proof (sqrt_sqrt B HB).
  replace ((a + x) * (a + x) + (b + y) * (b + y) + (c + z) * (c + z))%R
    with (A + B + 2 * (a * x + b * y + c * z))%R by (unfold A, B; ring).
  nra.
Qed.

Lemma sqdist_IZR i j : IZR (sqdist i j) =
  (let '(x, y, z) := i in let '(x', y', z') := j in
   (IZR x - IZR x') * (IZR x - IZR x') + (IZR y - IZR y') * (IZR y - IZR y')
   + (IZR z - IZR z') * (IZR z - IZR z'))%R.
Proof.
  destruct i as [[x y] z], j as [[x' y'] z']. unfold sqdist.
  rewrite !plus_IZR, !mult_IZR, !minus_IZR. reflexivity.
Qed.

Lemma dist_triangle i j k :
  (sqrt (IZR (sqdist i k)) <= sqrt (IZR (sqdist i j)) + sqrt (IZR (sqdist j k)))%R.
Proof.
  rewrite !sqdist_IZR. destruct i as [[x y] z], j as [[x' y'] z'], k as [[x'' y''] z''].
  eapply Rle_trans; [|apply triangle3]. right. f_equal. ring.
Qed.

Section Lipschitz.
Variables (res : R) (nx ny nz : Z) (p : idx -> bool) (X : idx -> Prop) (f : idx -> option xr).
Hypothesis Hres : (0 < res)%R.
Hypothesis F : field res nx ny nz p X f.

Lemma nearest_triangle (T : idx -> Prop) i j a b :
  is_nearest T i (Some a) -> is_nearest T j (Some b) ->
  (sqrt (IZR a) <= sqrt (IZR (sqdist i j)) + sqrt (IZR b))%R.
Proof.
  intros [_ L] [[k [Hk Dk]] _]. specialize (L k Hk). rewrite <- Dk.
  eapply Rle_trans; [|apply dist_triangle]. apply sqrt_le_1_alt. now apply IZR_le.
Qed.

(** C07 *)
Lemma field_lipschitz i j u v :
  in_box nx ny nz i -> in_box nx ny nz j -> f i = Some (XFin u) -> f j = Some (XFin v) ->
  (p i = p j -> (Rabs (u - v) <= cell_dist res i j)%R) /\
  (p i <> p j -> (Rabs (u - v) <= 2 * cell_dist res i j)%R).
Proof.
  intros Hi Hj Eu Ev.
  destruct (F i Hi) as [u' [Fu [mu [Nu Uu]]]]. rewrite Eu in Fu. injection Fu as <-.
  destruct (F j Hj) as [v' [Fv [mv [Nv Uv]]]]. rewrite Ev in Fv. injection Fv as <-.
  destruct mu as [a|]; [|destruct (p i); discriminate].
  destruct mv as [b|]; [|destruct (p j); discriminate].
  unfold cell_dist. set (d := sqrt (IZR (sqdist i j))).
  assert (Hd : (0 <= d)%R) by apply sqrt_pos.
  split; intros P.
  - assert (Nv' : is_nearest (fun k => opposite nx ny nz p i k \/ X k) j (Some b)).
    { eapply is_nearest_ext; [|exact Nv]. cbn beta. unfold opposite. rewrite P. easy. }
    pose proof (nearest_triangle _ _ _ _ _ Nu Nv') as T1.
    pose proof (nearest_triangle _ _ _ _ _ Nv' Nu) as T2.
    assert (Es : sqdist j i = sqdist i j) by apply sqdist_sym. rewrite Es in T2. fold d in T1, T2.
    rewrite P in Uu. destruct (p j); cbn in Uu, Uv; injection Uu as ->; injection Uv as ->;
      apply Rabs_le; split; nra.
  - assert (A1 : a <= sqdist i j).
    { destruct Nu as [_ L]. apply L. left. now split; [|congruence]. }
    assert (B1 : b <= sqdist i j).
    { rewrite sqdist_sym. destruct Nv as [_ L]. apply L. left. now split. }
    assert (A2 : (sqrt (IZR a) <= d)%R) by (apply sqrt_le_1_alt; now apply IZR_le).
    assert (B2 : (sqrt (IZR b) <= d)%R) by (apply sqrt_le_1_alt; now apply IZR_le).
    pose proof (sqrt_pos (IZR a)). pose proof (sqrt_pos (IZR b)).
    destruct (p i), (p j); try easy; cbn in Uu, Uv; injection Uu as ->; injection Uv as ->;
      apply Rabs_le; split; nra.
Qed.
End Lipschitz.
