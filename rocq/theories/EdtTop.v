(** Top-level statements about the distance transform. *)
From Coq Require Import ZArith QArith Reals List Lia Bool.
From Flocq Require Import Core BinarySingleNaN.
From Verif Require Import Util Grid Prog Schedule EdtModel ExactModel FloatModel EdtSpec EdtLineProofs
  EdtProofs EdtExact EdtFloat SdfModel SdfSpec SdfProofs.
Import ListNotations.
Local Open Scope Z_scope.

Definition nonneg (x : dist) : Prop := match x with Some v => 0 <= v | None => True end.

Lemma finite_bound (F : Z -> dist) n : (forall p, 0 <= p < n -> nonneg (F p)) ->
  exists M, forall p, 0 <= p < n -> bounded M (F p).
Proof.
  intros H. destruct (Z_le_gt_dec n 0) as [L|L]; [exists 0; lia|].
  assert (G : forall k : nat, exists M, 0 <= M /\ forall p, 0 <= p < Z.of_nat k -> p < n -> bounded M (F p)).
  { induction k as [|k [M [HM IH]]]; [exists 0; split; [lia|lia]|].
    exists (M + match F (Z.of_nat k) with Some v => Z.max v 0 | None => 0 end).
    split; [destruct (F (Z.of_nat k)); lia|].
    intros p Hp Hn. destruct (Z.eq_dec p (Z.of_nat k)) as [->|N].
    - specialize (H (Z.of_nat k) ltac:(lia)). destruct (F (Z.of_nat k)); cbn in *; lia.
    - specialize (IH p ltac:(lia) Hn). destruct (F p); cbn in *; [|easy].
      destruct (F (Z.of_nat k)); lia. }
  destruct (G (Z.to_nat n)) as [M [_ HM]]. exists M. intros p Hp. apply HM; lia.
Qed.

(** A line of [n] cells along the x axis holding [f 0 .. f (n-1)]. *)
Definition line_grid {V} (n : Z) (f : Z -> V) : grid V := gtab n 1 1 (fun i => f (fst (fst i))).

(** [g] holds the lower envelope of the parabolas rooted at the values [F]. *)
Definition holds_envelope {V} (rep : V -> dist -> Prop) (n : Z) (F : Z -> dist) (g : grid V) : Prop :=
  forall q, 0 <= q < n -> exists w m, gget g (q, 0, 0) = Some w /\ rep w m /\ is_min_parabola n F q m.

Lemma line_ok A rep bp N M (OK : arith_ok A rep bp N M) n (f : Z -> num A) F :
  0 < n <= N -> (forall p, 0 <= p < n -> rep (f p) (F p)) -> (forall p, 0 <= p < n -> bounded M (F p)) ->
  (exists g, run (edt_linear n (x_indexer 0 0)) (line_grid n f) = Some (tt, g) /\ holds_envelope rep n F g) /\
  (exists g, run (edt_brute_force n (x_indexer 0 0)) (line_grid n f) = Some (tt, g) /\ holds_envelope rep n F g) /\
  (exists g, run (edt_1d n (x_indexer 0 0)) (line_grid n f) = Some (tt, g) /\ holds_envelope rep n F g).
Proof.
  intros Hn HR HB.
  assert (W : gwf (line_grid n f)) by (apply gtab_wf; lia).
  assert (Hin : forall p, 0 <= p < n -> in_bounds (line_grid n f) (x_indexer 0 0 p) = true).
  { intros p Hp. unfold x_indexer. apply in_bounds_iff. cbn. lia. }
  assert (Hinj : forall p p', 0 <= p < n -> 0 <= p' < n -> x_indexer 0 0 p = x_indexer 0 0 p' -> p = p').
  { unfold x_indexer. intros; congruence. }
  assert (Hget : forall p, 0 <= p < n -> gget (line_grid n f) (x_indexer 0 0 p) = Some (f p)).
  { intros p Hp. unfold line_grid. rewrite gget_gtab. unfold x_indexer. cbn [fst].
    replace (in_bounds3 n 1 1 (p, 0, 0)) with true; [easy|]. symmetry. apply in_bounds3_iff. lia. }
  assert (Fin : forall (p : prog (num A) unit),
    wp p (line_grid n f) (fun _ g' => line_done A rep n (x_indexer 0 0) (line_grid n f) F g') ->
    exists g, run p (line_grid n f) = Some (tt, g) /\ holds_envelope rep n F g).
  { intros p H. unfold wp in H. destruct (run p (line_grid n f)) as [[[] g]|]; [|easy].
    exists g. split; [easy|]. intros q Hq. destruct H as [_ [_ [H _]]].
    destruct (H q Hq) as [w [m Q]]. exists w, m. exact Q. }
  split; [|split].
  - apply Fin. eapply edt_linear_ok; eassumption.
  - apply Fin. eapply edt_brute_force_ok; eassumption.
  - destruct (edt_1d_ok A rep bp N M OK n (x_indexer 0 0) (line_grid n f) f F) as [g [E H]]; try assumption.
    exists g. split; [exact E|]. intros q Hq. destruct H as [_ [_ [H _]]].
    destruct (H q Hq) as [w [m Q]]. exists w, m. exact Q.
Qed.

Lemma line_exact n (f : Z -> ext) F :
  0 < n -> (forall p, 0 <= p < n -> exact_rep (f p) (F p)) -> (forall p, 0 <= p < n -> nonneg (F p)) ->
  (exists g, run (edt_linear (A := exact) n (x_indexer 0 0)) (line_grid n f) = Some (tt, g) /\ holds_envelope exact_rep n F g) /\
  (exists g, run (edt_brute_force (A := exact) n (x_indexer 0 0)) (line_grid n f) = Some (tt, g) /\ holds_envelope exact_rep n F g) /\
  (exists g, run (edt_1d (A := exact) n (x_indexer 0 0)) (line_grid n f) = Some (tt, g) /\ holds_envelope exact_rep n F g).
Proof.
  intros Hn HR HP. destruct (finite_bound F n HP) as [M HM].
  apply (line_ok exact exact_rep exact_bp n M (exact_ok n M ltac:(lia))); [lia|easy|easy].
Qed.

Lemma line_binary64 n (f : Z -> b64) F :
  0 < n <= B25 -> (forall p, 0 <= p < n -> b64_rep (f p) (F p)) ->
  (forall p, 0 <= p < n -> bounded (2 * (B25 * B25)) (F p)) ->
  (exists g, run (edt_linear (A := binary64) n (x_indexer 0 0)) (line_grid n f) = Some (tt, g) /\ holds_envelope b64_rep n F g) /\
  (exists g, run (edt_brute_force (A := binary64) n (x_indexer 0 0)) (line_grid n f) = Some (tt, g) /\ holds_envelope b64_rep n F g) /\
  (exists g, run (edt_1d (A := binary64) n (x_indexer 0 0)) (line_grid n f) = Some (tt, g) /\ holds_envelope b64_rep n F g).
Proof.
  intros Hn HR HP.
  apply (line_ok binary64 b64_rep b64_bp B25 _ binary64_ok); easy.
Qed.

(** The two squared-distance fields handed to the transform. *)
Definition marked (A : arith) (nx ny nz : Z) (p : idx -> bool) (want_filled : bool) : grid (num A) :=
  let fs := mark_fields A nx ny nz p in if want_filled then fst fs else snd fs.

Definition sources (nx ny nz : Z) (p : idx -> bool) (want_filled : bool) (j : idx) : Prop :=
  in_box nx ny nz j /\ p j = want_filled.

Lemma marked_eq A nx ny nz p b : marked A nx ny nz p b =
  fold_left (fun g i => gset g i (a_zero A)) (filter (fun i => Bool.eqb (p i) b) (all_idx nx ny nz))
    (gconst nx ny nz (a_inf A)).
Proof.
  unfold marked, mark_fields. rewrite mark_fold. destruct b; cbn [fst snd]; f_equal;
    apply filter_ext; intros i; now destruct (p i).
Qed.

Section Field.
Variables (A : arith) (rep : num A -> dist -> Prop) (bp : num A -> Prop) (N M : Z).
Hypothesis OK : arith_ok A rep bp N M.
Hypothesis Rzero : rep (a_zero A) (Some 0).
Hypothesis HM : 2 * (N * N) <= M.

Lemma edt_field nx ny nz p b :
  0 < nx <= N -> 0 < ny <= N -> 0 < nz <= N ->
  exists g, edt_3d (marked A nx ny nz p b) = Some g /\
    forall i, in_box nx ny nz i ->
      exists a m, gget g i = Some a /\ rep a m /\ is_nearest (sources nx ny nz p b) i m.
Proof.
  intros Hx Hy Hz. rewrite marked_eq.
  destruct (edt_nearest A rep bp N M OK Rzero HM nx ny nz (fun i => Bool.eqb (p i) b) Hx Hy Hz) as [g [E G]].
  exists g. split; [exact E|]. intros i Hi. apply in_box_iff in Hi.
  destruct (G i Hi) as [a [m [Ga [Ra Na]]]]. exists a, m. split; [easy|]. split; [easy|].
  eapply is_nearest_ext; [|exact Na]. intros j. unfold sources. rewrite in_box_iff, eqb_true_iff. easy.
Qed.

Lemma edt_schedules nx ny nz p b :
  0 < nx <= N -> 0 < ny <= N -> 0 < nz <= N ->
  exists gs, edt_3d (marked A nx ny nz p b) = Some gs /\
    Acc (fun t s => mstep s t) (edt_start (marked A nx ny nz p b)) /\
    forall s, msteps (edt_start (marked A nx ny nz p b)) s ->
      ~ racy (mthreads s) /\ (mfinished s -> mgrid s = gs) /\ (mfinished s \/ exists s', mstep s s').
Proof.
  intros Hx Hy Hz. destruct (edt_field nx ny nz p b Hx Hy Hz) as [gs [E _]].
  exists gs. split; [exact E|].
  assert (D : same_dims (marked A nx ny nz p b) (gconst nx ny nz (a_inf A))).
  { rewrite marked_eq. apply fold_gset_dims. }
  destruct D as [Dx [Dy Dz]]. cbn in Dx, Dy, Dz.
  apply phases_deterministic.
  - rewrite marked_eq. apply fold_gset_wf. apply gconst_wf; lia.
  - apply passes_separated; lia.
  - exact E.
Qed.
End Field.

Lemma edt_field_binary64 nx ny nz p b :
  0 < nx <= B25 -> 0 < ny <= B25 -> 0 < nz <= B25 ->
  exists g, edt_3d (marked binary64 nx ny nz p b) = Some g /\
    forall i, in_box nx ny nz i ->
      exists a m, gget g i = Some a /\ b64_rep a m /\ is_nearest (sources nx ny nz p b) i m.
Proof.
  apply (edt_field binary64 b64_rep b64_bp B25 _ binary64_ok); [|lia]. cbn. split; reflexivity.
Qed.

Lemma edt_schedules_binary64 nx ny nz p b :
  0 < nx <= B25 -> 0 < ny <= B25 -> 0 < nz <= B25 ->
  exists gs, edt_3d (marked binary64 nx ny nz p b) = Some gs /\
    Acc (fun t s => mstep s t) (edt_start (marked binary64 nx ny nz p b)) /\
    forall s, msteps (edt_start (marked binary64 nx ny nz p b)) s ->
      ~ racy (mthreads s) /\ (mfinished s -> mgrid s = gs) /\ (mfinished s \/ exists s', mstep s s').
Proof.
  apply (edt_schedules binary64 b64_rep b64_bp B25 _ binary64_ok); [|lia]. cbn. split; reflexivity.
Qed.

Lemma edt_schedules_exact nx ny nz p b :
  0 < nx -> 0 < ny -> 0 < nz ->
  exists gs, edt_3d (marked exact nx ny nz p b) = Some gs /\
    Acc (fun t s => mstep s t) (edt_start (marked exact nx ny nz p b)) /\
    forall s, msteps (edt_start (marked exact nx ny nz p b)) s ->
      ~ racy (mthreads s) /\ (mfinished s -> mgrid s = gs) /\ (mfinished s \/ exists s', mstep s s').
Proof.
  intros Hx Hy Hz. set (N := nx + ny + nz).
  apply (edt_schedules exact exact_rep exact_bp N (2 * (N * N)) (exact_ok N _ ltac:(lia))); try lia.
  cbn. reflexivity.
Qed.
