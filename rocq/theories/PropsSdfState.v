(** Property theorems C14, C15, C56 and C57: lock state and cached minimum/maximum. *)
From Coq Require Import ZArith List Lia Bool.
From Flocq Require Import Core BinarySingleNaN.
From Verif Require Import Util Grid FloatModel SdfStateModel SdfStateSpec SdfStateProofs.
Import ListNotations.
Local Open Scope Z_scope.

(** C14: from a Lock (made while no mutable reference is kept) until the next
    Unlock or reload, no stored value changes and no request for mutable access is
    granted.  Any scalar type, any field state. *)
Theorem c14_locked_field_is_frozen (S : Type) (lt : S -> S -> bool) s s1 ops :
  fstep lt s FLock = (s1, RDone) -> f_refs s = [] -> Forall keeps_lock ops ->
  f_grid (fst (frun lt s1 ops)) = f_grid s /\
  (forall k o r, nth_error ops k = Some o -> nth_error (snd (frun lt s1 ops)) k = Some r ->
     asks_mutable o -> r <> RDone).
Proof. exact (lock_frozen lt s s1 ops). Qed.
Print Assumptions c14_locked_field_is_frozen.

Definition ex_zero : b64 := B754_zero false.
Definition ex_one : b64 := @B754_finite 53 1024 false 4503599627370496 (-52) eq_refl.
Definition ex_two : b64 := @B754_finite 53 1024 false 4503599627370496 (-51) eq_refl.
Definition ex_start : field_state b64 := f_construct ex_zero 2 1 1 ex_one.
Definition ex_ops : list (fop b64) :=
  [FSet (0, 0, 0) ex_two; FAcquire (1, 0, 0); FRawSet 1 ex_two; FMinMax; FRefWrite 0 ex_two].
Example c14_hypotheses :
  snd (fstep b64_ltb ex_start FLock) = RDone /\ f_refs ex_start = [] /\ Forall keeps_lock ex_ops /\
  snd (frun b64_ltb ex_start ex_ops) = [RDone; RDone; RDone; RMinMax (ex_two, ex_two); RDone].
Proof.
  split; [reflexivity|]. split; [reflexivity|]. split; [repeat constructor|]. vm_compute. reflexivity.
Qed.

(** C15, for [double] and [float]: after every careful history from a constructed
    SDF that stores no NaN, GetMinimumMaximum answers the current extremes. *)
Theorem c15_minmax_current nx ny nz (d z : b64) ops s outs :
  0 < nx -> 0 < ny -> 0 < nz -> is_nan d = false ->
  along (@Bltb 53 1024) careful (f_construct z nx ny nz d) ops ->
  Forall (writes (fun x : b64 => is_nan x = false)) ops ->
  frun (@Bltb 53 1024) (f_construct z nx ny nz d) ops = (s, outs) ->
  exists m, fstep (@Bltb 53 1024) s FMinMax = (s, RMinMax m) /\ is_minmax (g_cells (f_grid s)) m.
Proof. exact (minmax_current 53 1024 nx ny nz d z ops s outs). Qed.
Print Assumptions c15_minmax_current.

Theorem c15_minmax_current_float nx ny nz (d z : b32) ops s outs :
  0 < nx -> 0 < ny -> 0 < nz -> is_nan d = false ->
  along (@Bltb 24 128) careful (f_construct z nx ny nz d) ops ->
  Forall (writes (fun x : b32 => is_nan x = false)) ops ->
  frun (@Bltb 24 128) (f_construct z nx ny nz d) ops = (s, outs) ->
  exists m, fstep (@Bltb 24 128) s FMinMax = (s, RMinMax m) /\ is_minmax (g_cells (f_grid s)) m.
Proof. exact (minmax_current 24 128 nx ny nz d z ops s outs). Qed.
Print Assumptions c15_minmax_current_float.

Definition ex_history : list (fop b64) :=
  [FAcquire (0, 0, 0); FRefWrite 0 ex_two; FDropRefs; FLock; FSet (1, 0, 0) ex_two; FMinMax; FUnlock;
   FRawSet 1 ex_two; FReload (gconst 3 1 1 ex_two) true].
Example c15_hypotheses :
  along (@Bltb 53 1024) careful ex_start ex_history /\
  Forall (writes (fun x : b64 => is_nan x = false)) ex_history /\
  nth_error (snd (frun (@Bltb 53 1024) ex_start ex_history)) 5 = Some (RMinMax (ex_one, ex_two)).
Proof.
  split; [cbn; tauto|]. split; [|vm_compute; reflexivity].
  assert (N1 : is_nan ex_one = false) by (vm_compute; reflexivity).
  assert (N2 : is_nan ex_two = false) by (vm_compute; reflexivity).
  unfold ex_history. repeat (apply Forall_cons || apply Forall_nil); try exact I; try exact N2.
  split; [apply gconst_wf; lia|]. cbn. repeat constructor; exact N2.
Qed.

(** C56 fails: a reference kept from before the lock still writes.  The witness
    acquires a reference, locks, and writes through it. *)
Theorem c56_kept_reference_refuted :
  exists (s : field_state b64) s1 ops,
    fstep b64_ltb s FLock = (s1, RDone) /\ Forall keeps_lock ops /\
    g_cells (f_grid (fst (frun b64_ltb s1 ops))) <> g_cells (f_grid s).
Proof.
  exists (fst (fstep b64_ltb ex_start (FAcquire (0, 0, 0)))).
  exists (fst (fstep b64_ltb (fst (fstep b64_ltb ex_start (FAcquire (0, 0, 0)))) FLock)).
  exists [FRefWrite 0 ex_two]. split; [vm_compute; reflexivity|]. split; [repeat constructor|].
  vm_compute. discriminate.
Qed.
Print Assumptions c56_kept_reference_refuted.

(** C57 fails: DeserializeSelf on a locked SDF calls Lock, which copies the cached
    minimum and maximum of the previous contents. *)
Theorem c57_reload_while_locked_refuted :
  exists (s : field_state b64) g s' m,
    f_locked s = true /\ gwf g /\ Forall (fun x : b64 => is_nan x = false) (g_cells g) /\
    fstep b64_ltb s (FReload g true) = (s', RDone) /\ g_cells (f_grid s') = g_cells g /\
    fstep b64_ltb s' FMinMax = (s', RMinMax m) /\ ~ In (fst m) (g_cells g).
Proof.
  exists (fst (fstep b64_ltb ex_start FLock)), (gconst 2 1 1 ex_two).
  exists (fst (fstep b64_ltb (fst (fstep b64_ltb ex_start FLock)) (FReload (gconst 2 1 1 ex_two) true))).
  exists (ex_one, ex_one). split; [reflexivity|]. split; [apply gconst_wf; lia|].
  split; [vm_compute; repeat constructor|].
  split; [vm_compute; reflexivity|]. split; [vm_compute; reflexivity|]. split; [vm_compute; reflexivity|].
  vm_compute. intuition discriminate.
Qed.
Print Assumptions c57_reload_while_locked_refuted.
