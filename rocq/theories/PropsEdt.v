(** Property theorems C02-C04: the distance transform. *)
From Coq Require Import ZArith QArith Reals List Lia Bool.
From Flocq Require Import Core BinarySingleNaN.
From Verif Require Import Util Grid Prog Schedule EdtModel ExactModel FloatModel EdtSpec EdtLineProofs
  EdtExact EdtFloat SdfModel SdfSpec EdtTop.
Import ListNotations.
Local Open Scope Z_scope.

(** C02: both variants, and the dispatching function, compute the lower envelope. *)
Theorem c02_line_transform n (f : Z -> ext) (F : Z -> dist) :
  0 < n -> (forall p, 0 <= p < n -> exact_rep (f p) (F p)) -> (forall p, 0 <= p < n -> nonneg (F p)) ->
  (exists g, run (edt_linear (A := exact) n (x_indexer 0 0)) (line_grid n f) = Some (tt, g) /\
     holds_envelope exact_rep n F g) /\
  (exists g, run (edt_brute_force (A := exact) n (x_indexer 0 0)) (line_grid n f) = Some (tt, g) /\
     holds_envelope exact_rep n F g) /\
  (exists g, run (edt_1d (A := exact) n (x_indexer 0 0)) (line_grid n f) = Some (tt, g) /\
     holds_envelope exact_rep n F g).
Proof. exact (line_exact n f F). Qed.
Print Assumptions c02_line_transform.

Theorem c02_line_transform_binary64 n (f : Z -> b64) (F : Z -> dist) :
  0 < n <= B25 -> (forall p, 0 <= p < n -> b64_rep (f p) (F p)) ->
  (forall p, 0 <= p < n -> bounded (2 * (B25 * B25)) (F p)) ->
  (exists g, run (edt_linear (A := binary64) n (x_indexer 0 0)) (line_grid n f) = Some (tt, g) /\
     holds_envelope b64_rep n F g) /\
  (exists g, run (edt_brute_force (A := binary64) n (x_indexer 0 0)) (line_grid n f) = Some (tt, g) /\
     holds_envelope b64_rep n F g) /\
  (exists g, run (edt_1d (A := binary64) n (x_indexer 0 0)) (line_grid n f) = Some (tt, g) /\
     holds_envelope b64_rep n F g).
Proof. exact (line_binary64 n f F). Qed.
Print Assumptions c02_line_transform_binary64.

(** A line of 11 cells with finite and infinite values meets the hypotheses. *)
Definition ex_line (p : Z) : dist := if p mod 3 =? 0 then Some (7 * p) else None.
Definition ex_vals (p : Z) : ext := if p mod 3 =? 0 then Fin (inject_Z (7 * p)) else PInf.
Example c02_hypotheses : 0 < 11 /\ (forall p, 0 <= p < 11 -> exact_rep (ex_vals p) (ex_line p)) /\
  (forall p, 0 <= p < 11 -> nonneg (ex_line p)).
Proof.
  split; [lia|]. split; intros p Hp; unfold ex_vals, ex_line; destruct (p mod 3 =? 0);
    unfold exact_rep, nonneg; first [reflexivity|exact I|lia].
Qed.
Example c02_runs : exists g, run (edt_linear (A := exact) 11 (x_indexer 0 0)) (line_grid 11 ex_vals) = Some (tt, g)
  /\ gget g (4, 0, 0) <> gget g (10, 0, 0).
Proof. eexists. split; [vm_compute; reflexivity|vm_compute; discriminate]. Qed.

(** C03: squared distances computed in binary64 are the exact integers. *)
Theorem c03_binary64_distances_exact nx ny nz (filled : idx -> bool) (b : bool) :
  0 < nx <= B25 -> 0 < ny <= B25 -> 0 < nz <= B25 ->
  exists g, edt_3d (marked binary64 nx ny nz filled b) = Some g /\
    forall i, in_box nx ny nz i ->
      exists a m, gget g i = Some a /\ b64_rep a m /\ is_nearest (sources nx ny nz filled b) i m.
Proof. exact (edt_field_binary64 nx ny nz filled b). Qed.
Print Assumptions c03_binary64_distances_exact.

Definition ex_filled (i : idx) : bool := let '(x, y, z) := i in (x + 2 * y + 3 * z) mod 5 =? 0.
Example c03_hypotheses : 0 < 12 <= B25 /\ 0 < 3 <= B25 /\ 0 < 1 <= B25 /\
  exists i j, in_box 12 3 1 i /\ in_box 12 3 1 j /\ ex_filled i = true /\ ex_filled j = false.
Proof.
  unfold B25. split; [lia|]. split; [lia|]. split; [lia|].
  exists (0, 0, 0), (1, 0, 0). unfold in_box. repeat split; lia || reflexivity.
Qed.

(** C04: any number of threads, any assignment of iterations, any interleaving of
    cell accesses: it terminates, never races, never gets stuck, and ends with the
    serial result. *)
Theorem c04_schedule_independent nx ny nz (filled : idx -> bool) (b : bool) :
  0 < nx -> 0 < ny -> 0 < nz ->
  exists gs, edt_3d (marked exact nx ny nz filled b) = Some gs /\
    Acc (fun t s => mstep s t) (edt_start (marked exact nx ny nz filled b)) /\
    forall s, msteps (edt_start (marked exact nx ny nz filled b)) s ->
      ~ racy (mthreads s) /\ (mfinished s -> mgrid s = gs) /\ (mfinished s \/ exists s', mstep s s').
Proof. exact (edt_schedules_exact nx ny nz filled b). Qed.
Print Assumptions c04_schedule_independent.

Theorem c04_schedule_independent_binary64 nx ny nz (filled : idx -> bool) (b : bool) :
  0 < nx <= B25 -> 0 < ny <= B25 -> 0 < nz <= B25 ->
  exists gs, edt_3d (marked binary64 nx ny nz filled b) = Some gs /\
    Acc (fun t s => mstep s t) (edt_start (marked binary64 nx ny nz filled b)) /\
    forall s, msteps (edt_start (marked binary64 nx ny nz filled b)) s ->
      ~ racy (mthreads s) /\ (mfinished s -> mgrid s = gs) /\ (mfinished s \/ exists s', mstep s s').
Proof. exact (edt_schedules_binary64 nx ny nz filled b). Qed.
Print Assumptions c04_schedule_independent_binary64.

(** A two-thread schedule of the first pass of a 3x2x2 grid is a legal first step. *)
Example c04_parallel_step : exists s,
  mstep (edt_start (marked exact 3 2 2 ex_filled true)) s /\ length (mthreads s) = 2%nat.
Proof.
  eexists. split.
  - apply (m_next _ _ _ _ [[3; 0]; [2; 1]]); [constructor|].
    unfold schedules. cbn. apply Permutation.NoDup_Permutation.
    + repeat constructor; cbn; lia.
    + repeat constructor; cbn; lia.
    + intros x. vm_compute (zrange 0 _). cbn [In concat app]. lia.
  - reflexivity.
Qed.
