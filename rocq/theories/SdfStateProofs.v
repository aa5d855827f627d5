(** Proofs about the lock state and cached minimum/maximum. *)
From Coq Require Import ZArith List Lia Bool.
From Flocq Require Import Core BinarySingleNaN.
From Verif Require Import Util Grid SdfStateModel SdfStateSpec FloatOrder.
Import ListNotations.
Local Open Scope Z_scope.

Section Frozen.
Context {S : Type} (lt : S -> S -> bool).

Lemma frozen_step s o :
  f_locked s = true -> f_refs s = [] -> keeps_lock o ->
  f_grid (fst (fstep lt s o)) = f_grid s /\ f_locked (fst (fstep lt s o)) = true /\
  f_refs (fst (fstep lt s o)) = [] /\ (asks_mutable o -> snd (fstep lt s o) <> RDone).
Proof.
  intros HL HR K. destruct o; cbn in K |- *; unfold on_mutable_access; rewrite ?HL, ?HR; cbn;
    try (destruct (in_bounds (f_grid s) i); cbn; rewrite ?HL, ?HR; cbn; repeat split; (congruence || easy));
    try (cbn; repeat split; (congruence || easy)).
  - rewrite nth_error_nil || destruct k; cbn; repeat split; (congruence || easy).
  - unfold f_lock, get_minmax. rewrite HL. cbn. rewrite HR. repeat split; (congruence || easy).
Qed.

Lemma frun_cons s o t :
  frun lt s (o :: t) = (fst (frun lt (fst (fstep lt s o)) t),
                        snd (fstep lt s o) :: snd (frun lt (fst (fstep lt s o)) t)).
Proof. cbn. destruct (fstep lt s o) as [s1 r]. cbn. destruct (frun lt s1 t). reflexivity. Qed.

Lemma frozen s ops :
  f_locked s = true -> f_refs s = [] -> Forall keeps_lock ops ->
  f_grid (fst (frun lt s ops)) = f_grid s /\
  (forall k o r, nth_error ops k = Some o -> nth_error (snd (frun lt s ops)) k = Some r ->
     asks_mutable o -> r <> RDone).
Proof.
  revert s. induction ops as [|o t IH]; intros s HL HR F.
  - split; [reflexivity|]. intros [|k] o r; discriminate.
  - inversion F as [|? ? Ko Kt]; subst.
    destruct (frozen_step s o HL HR Ko) as (G & L & R & A).
    destruct (IH (fst (fstep lt s o)) L R Kt) as [G' A']. rewrite frun_cons. cbn [fst snd].
    split; [congruence|]. intros [|k] o' r'; cbn.
    + intros [= <-] [= <-]. exact A.
    + exact (A' k o' r').
Qed.

Lemma lock_frozen s s1 ops :
  fstep lt s FLock = (s1, RDone) -> f_refs s = [] -> Forall keeps_lock ops ->
  f_grid (fst (frun lt s1 ops)) = f_grid s /\
  (forall k o r, nth_error ops k = Some o -> nth_error (snd (frun lt s1 ops)) k = Some r ->
     asks_mutable o -> r <> RDone).
Proof.
  intros E R F. cbn in E. unfold f_lock in E. destruct (get_minmax lt s) as [m|]; cbn in E; [|discriminate].
  injection E as <-. exact (frozen (mkField (f_grid s) true m (f_refs s)) ops eq_refl R F).
Qed.

(** The cached minimum and maximum are those a new computation gives. *)
Definition cache_inv (s : field_state S) : Prop :=
  f_locked s = true -> f_refs s = [] /\ get_minmax lt (f_unlock s) = Some (f_minmax s).

Lemma cache_inv_step s o : cache_inv s -> careful s o -> cache_inv (fst (fstep lt s o)).
Proof.
  intros I C. destruct (f_locked s) eqn:L.
  - destruct (I L) as (R & M). destruct o; cbn in C |- *; unfold on_mutable_access; rewrite ?L, ?R; cbn;
      try (destruct (in_bounds (f_grid s) i); cbn); try assumption.
    + destruct k; cbn; assumption.
    + intros _. auto.
    + unfold f_lock, get_minmax. rewrite L. cbn. intros _. cbn. auto.
    + intros X. discriminate.
    + congruence.
  - destruct o; cbn in C |- *; unfold on_mutable_access; rewrite ?L; cbn;
      try (destruct (in_bounds (f_grid s) i); cbn); try assumption; try (intros X; cbn in X; congruence).
    + destruct (nth_error (f_refs s) k); cbn; intros X; cbn in X; congruence.
    + destruct (zset (g_cells (f_grid s)) k v); cbn; intros X; cbn in X; congruence.
    + unfold f_lock. destruct (get_minmax lt s) as [m|] eqn:E; cbn; [|exact I].
      intros _. cbn. split; [exact C|]. unfold get_minmax in *. rewrite L in E. cbn. exact E.
    + destruct locked; [|intros X; discriminate]. unfold f_lock, get_minmax. cbn.
      destruct (minmax_element lt (g_cells g)) as [m|] eqn:E; cbn; [|intros X; cbn in X; congruence].
      destruct (make_minmax lt m) as [m'|] eqn:E'; cbn; [|intros X; cbn in X; congruence].
      intros _. cbn. split; [reflexivity|]. unfold get_minmax. cbn. rewrite E. exact E'.
Qed.

Lemma cache_inv_run s ops : cache_inv s -> along lt careful s ops -> cache_inv (fst (frun lt s ops)).
Proof.
  revert s. induction ops as [|o t IH]; intros s I A; [exact I|].
  destruct A as [A1 A2]. rewrite frun_cons. cbn [fst]. apply IH; [|assumption]. now apply cache_inv_step.
Qed.
End Frozen.

Section MinMax.
Context (prec emax : Z) {Hp : Prec_gt_0 prec} {He : Prec_lt_emax prec emax}.
Notation F := (binary_float prec emax).
Notation number := (fun x : F => is_nan x = false).

Lemma minmax_fold (l seen : list F) (a : F * F) :
  Forall number l -> Forall number seen -> In (fst a) seen -> In (snd a) seen ->
  (forall x, In x seen -> Bltb x (fst a) = false /\ Bltb (snd a) x = false) ->
  let m := fold_left (minmax_step Bltb) l a in
  In (fst m) (seen ++ l) /\ In (snd m) (seen ++ l) /\
  (forall x, In x (seen ++ l) -> Bltb x (fst m) = false /\ Bltb (snd m) x = false).
Proof.
  revert seen a. induction l as [|y t IH]; intros seen a Hl Hs H1 H2 H3 m.
  - subst m. cbn. rewrite app_nil_r. auto.
  - inversion Hl as [|? ? Ny Nt]; subst.
    assert (N1 : number (fst a)) by (rewrite Forall_forall in Hs; auto).
    assert (N2 : number (snd a)) by (rewrite Forall_forall in Hs; auto).
    specialize (IH (seen ++ [y]) (minmax_step Bltb a y) Nt).
    rewrite <- !app_assoc in IH. cbn [app] in IH. apply IH.
    + apply Forall_app. split; [assumption|constructor; auto].
    + unfold minmax_step. cbn. apply in_or_app. destruct (Bltb y (fst a)); cbn; auto.
    + unfold minmax_step. cbn. apply in_or_app. destruct (Bltb y (snd a)); cbn; auto.
    + intros x Hx. apply in_app_or in Hx. unfold minmax_step. cbn [fst snd].
      destruct Hx as [Hx|[<-|[]]].
      * destruct (H3 x Hx) as [A B].
        assert (Nx : number x) by (rewrite Forall_forall in Hs; auto). split.
        -- destruct (Bltb y (fst a)) eqn:E; [|assumption].
           destruct (Bltb x y) eqn:E2; [|reflexivity].
           apply (Bltb_iff prec emax) in E; [|assumption|assumption].
           apply (Bltb_iff prec emax) in E2; [|assumption|assumption].
           assert (Bltb x (fst a) = true) by (apply Bltb_iff; [assumption|assumption|]; Lra.lra). congruence.
        -- destruct (Bltb y (snd a)) eqn:E; [assumption|].
           exact (Bltb_false_trans prec emax y (snd a) x Ny N2 Nx E B).
      * split.
        -- destruct (Bltb y (fst a)) eqn:E; [apply Bltb_irrefl|assumption].
        -- destruct (Bltb y (snd a)) eqn:E; [|apply Bltb_irrefl].
           destruct (Bltb (snd a) y) eqn:E2; [|reflexivity].
           apply (Bltb_iff prec emax) in E; [|assumption|assumption].
           apply (Bltb_iff prec emax) in E2; [|assumption|assumption]. Lra.lra.
Qed.

Lemma minmax_element_ok (l : list F) : l <> [] -> Forall number l ->
  exists m, minmax_element Bltb l = Some m /\ make_minmax Bltb m = Some m /\ is_minmax l m.
Proof.
  intros Hl N. destruct l as [|x t]; [contradiction|]. cbn [minmax_element].
  inversion N as [|? ? Nx Nt]; subst. eexists. split; [reflexivity|].
  destruct (minmax_fold t [x] (x, x)) as (A & B & C).
  - assumption. - constructor; auto. - cbn; auto. - cbn; auto.
  - intros y [<-|[]]. cbn. rewrite Bltb_irrefl. auto.
  - cbn [app] in A, B, C. set (m := fold_left (minmax_step Bltb) t (x, x)) in *.
    rewrite Forall_forall in N.
    split.
    + unfold make_minmax. destruct (C _ A) as [_ C2]. now rewrite C2.
    + split; [exact A|]. split; [exact B|]. intros y Hy. destruct (C y Hy) as [C1 C2].
      rewrite !(Bleb_negb_Bltb prec emax) by auto. now rewrite C1, C2.
Qed.

(** Invariant of careful histories. *)
Definition inv (s : field_state F) : Prop :=
  gwf (f_grid s) /\ Forall number (g_cells (f_grid s)) /\
  (f_locked s = true -> f_refs s = [] /\ is_minmax (g_cells (f_grid s)) (f_minmax s)).

Lemma gwf_nonempty {A} (g : grid A) : gwf g -> g_cells g <> [].
Proof.
  intros (Hx & Hy & Hz & H) E. rewrite E in H. unfold zlen, g_total in H. cbn in H. nia.
Qed.

Lemma get_minmax_ok s : inv s -> exists m, get_minmax Bltb s = Some m /\ is_minmax (g_cells (f_grid s)) m.
Proof.
  intros (W & N & L). unfold get_minmax. destruct (f_locked s) eqn:E.
  - exists (f_minmax s). split; [reflexivity|]. now apply L.
  - destruct (minmax_element_ok (g_cells (f_grid s)) (gwf_nonempty _ W) N) as (m & H1 & H2 & H3).
    exists m. rewrite H1. cbn. auto.
Qed.

Lemma Forall_zset {A} (P : A -> Prop) l k v l' : Forall P l -> P v -> zset l k v = Some l' -> Forall P l'.
Proof.
  intros H Hv. unfold zset. destruct (k <? 0); [discriminate|]. generalize (Z.to_nat k). intros n. revert l' n.
  induction H as [|x t Hx Ht IH]; intros l' n; cbn; [discriminate|].
  destruct n as [|n]; [intros [= <-]; constructor; auto|].
  destruct (nset t n v) as [t'|] eqn:E; [|discriminate]. intros [= <-]. constructor; eauto.
Qed.

Lemma Forall_gset {A} (P : A -> Prop) (g : grid A) i v :
  Forall P (g_cells g) -> P v -> Forall P (g_cells (gset g i v)).
Proof.
  intros H Hv. unfold gset. destruct (in_bounds g i); [|assumption].
  destruct (zset (g_cells g) (data_index g i) v) as [c|] eqn:E; [|assumption].
  cbn. eapply Forall_zset; eauto.
Qed.

Lemma inv_step s o : inv s -> careful s o -> writes (fun x : F => is_nan x = false) o ->
  inv (fst (fstep Bltb s o)).
Proof.
  intros I C Wr. destruct (get_minmax_ok s I) as (m & M1 & M2).
  destruct I as (W & N & L). destruct o; cbn in C, Wr |- *.
  - destruct (in_bounds (f_grid s) i); [|now split].
    unfold on_mutable_access. destruct (f_locked s) eqn:E; cbn; [now split; [|split; [|rewrite E]]|].
    split; [now apply gset_wf|]. split; [now apply Forall_gset|]. cbn. rewrite E. discriminate.
  - destruct (in_bounds (f_grid s) i); [|now split].
    unfold on_mutable_access. destruct (f_locked s) eqn:E; cbn; [now split; [|split; [|rewrite E]]|].
    split; [assumption|]. split; [assumption|]. cbn. discriminate.
  - destruct (nth_error (f_refs s) k) as [i|] eqn:E; [|now split]. cbn.
    split; [now apply gset_wf|]. split; [now apply Forall_gset|]. cbn. intros HL.
    destruct (L HL) as [R _]. rewrite R in E. destruct k; discriminate.
  - split; [assumption|]. split; [assumption|]. cbn. intros HL. split; [reflexivity|]. now apply L.
  - unfold on_mutable_access. destruct (f_locked s) eqn:E; cbn; [now split; [|split; [|rewrite E]]|].
    destruct (zset (g_cells (f_grid s)) k v) as [c|] eqn:Z; cbn; [|now split; [|split; [|rewrite E]]].
    destruct W as (Wx & Wy & Wz & Wl). split.
    + split; [assumption|]. split; [assumption|]. split; [assumption|]. cbn.
      rewrite (zset_length _ _ _ _ Z). exact Wl.
    + split; [cbn; eapply Forall_zset; eauto|]. cbn. rewrite E. discriminate.
  - unfold f_lock. rewrite M1. cbn. split; [assumption|]. split; [assumption|]. cbn. auto.
  - split; [assumption|]. split; [assumption|]. cbn. discriminate.
  - now split.
  - now split.
  - destruct Wr as [Wg Wn]. unfold f_lock.
    assert (I1 : inv (mkField g (f_locked s) (f_minmax s) [])).
    { split; [assumption|]. split; [assumption|]. cbn. rewrite C. discriminate. }
    destruct locked.
    + destruct (get_minmax_ok _ I1) as (m' & M1' & M2'). rewrite M1'. cbn.
      split; [assumption|]. split; [assumption|]. cbn. auto.
    + split; [assumption|]. split; [assumption|]. cbn. discriminate.
Qed.

Lemma inv_run s ops : inv s -> along Bltb careful s ops -> Forall (writes (fun x : F => is_nan x = false)) ops ->
  inv (fst (frun Bltb s ops)).
Proof.
  revert s. induction ops as [|o t IH]; intros s I A Wr; [exact I|].
  inversion Wr; subst. destruct A as [A1 A2]. rewrite frun_cons. cbn [fst]. apply IH; auto.
  now apply inv_step.
Qed.

Lemma minmax_current nx ny nz (d z : F) ops s outs :
  0 < nx -> 0 < ny -> 0 < nz -> is_nan d = false ->
  along Bltb careful (f_construct z nx ny nz d) ops ->
  Forall (writes (fun x : F => is_nan x = false)) ops ->
  frun Bltb (f_construct z nx ny nz d) ops = (s, outs) ->
  exists m, fstep Bltb s FMinMax = (s, RMinMax m) /\ is_minmax (g_cells (f_grid s)) m.
Proof.
  intros Hx Hy Hz Nd A Wr E.
  assert (I : inv s).
  { change s with (fst (s, outs)). rewrite <- E. apply inv_run; auto.
    split; [now apply gconst_wf|]. split; [|cbn; discriminate].
    cbn. apply Forall_forall. intros x Hin. apply repeat_spec in Hin. now subst. }
  destruct (get_minmax_ok s I) as (m & M1 & M2). exists m. cbn. rewrite M1. auto.
Qed.
End MinMax.
