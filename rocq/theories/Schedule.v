(** Any interleaving of threads that work on disjoint cells gives the sequential
    result.  Models the parallel-for of common_robotics_utilities
    (StaticParallelForRangeLoop / StaticParallelForIndexLoop): every iteration is
    executed once, by some thread, in some order, with no synchronisation. *)
From Coq Require Import ZArith List Lia Bool Permutation.
From Verif Require Import Util Grid Prog.
Import ListNotations.
Local Open Scope Z_scope.

(** The threads of a parallel loop: each thread runs its list of iterations one
    after the other. *)
Definition threads {V A} (f : A -> prog V unit) (sched : list (list A)) : list (prog V unit) :=
  map (fun ts => pseq (map f ts)) sched.

(** [sched] hands out each iteration of [0, n) exactly once. *)
Definition schedules (sched : list (list Z)) (n : Z) : Prop :=
  Permutation (concat sched) (zrange 0 n).

(** A parallel loop ([p_count] iterations of [p_task]); a sequence of them, each
    finished (joined) before the next one starts. *)
Record phase (V : Type) : Type := mkPhase { p_count : Z; p_task : Z -> prog V unit }.
Arguments mkPhase {V}. Arguments p_count {V}. Arguments p_task {V}.

Definition run_phase {V} (g : grid V) (p : phase V) : option (grid V) :=
  let* (_, g') := run (pseq (map (p_task p) (zrange 0 (p_count p)))) g in Some g'.
Definition run_phases {V} (ps : list (phase V)) (g : grid V) : option (grid V) :=
  ofold run_phase ps g.

(** Threads of the current loop, shared grid, loops still to run. *)
Definition mstate (V : Type) : Type := (list (prog V unit) * grid V * list (phase V))%type.

Inductive mstep {V} : mstate V -> mstate V -> Prop :=
| m_access ps g ps' g' rest : cstep (ps, g) (ps', g') -> mstep (ps, g, rest) (ps', g', rest)
| m_next ps g p rest sched :
    done ps -> schedules sched (p_count p) ->
    mstep (ps, g, p :: rest) (threads (p_task p) sched, g, rest).

Inductive msteps {V} : mstate V -> mstate V -> Prop :=
| msteps_refl s : msteps s s
| msteps_cons s1 s2 s3 : mstep s1 s2 -> msteps s2 s3 -> msteps s1 s3.

Definition mthreads {V} (s : mstate V) : list (prog V unit) := fst (fst s).
Definition mgrid {V} (s : mstate V) : grid V := snd (fst s).
Definition mfinished {V} (s : mstate V) : Prop := done (mthreads s) /\ snd s = [].

Definition disjoint (F G : idx -> bool) : Prop := forall i, F i = true -> G i = false.

Section Sched.
Context {V : Type}.
Implicit Types (ps : list (prog V unit)) (g : grid V) (Fs : list (idx -> bool)).

Lemma disjoint_sym F G : disjoint F G -> disjoint G F.
Proof. intros H i Hi. destruct (F i) eqn:E; [|easy]. apply H in E. congruence. Qed.

Definition pw_disjoint Fs : Prop :=
  forall a b F G, nth_error Fs a = Some F -> nth_error Fs b = Some G -> a <> b -> disjoint F G.

Definition union Fs : idx -> bool := fun i => existsb (fun F => F i) Fs.

Lemma touches_union Fs ps : Forall2 touches Fs ps -> touches (union Fs) (pseq ps).
Proof.
  intros H. apply touches_pseq. induction H as [|F p Fs ps HF HT IH]; constructor.
  - eapply touches_weaken; [|exact HF]. intros i Hi. unfold union; cbn. now rewrite Hi.
  - eapply Forall_impl; [|exact IH]. intros q Hq. eapply touches_weaken; [|exact Hq].
    intros i Hi. unfold union in *; cbn. now rewrite Hi, orb_true_r.
Qed.

Lemma union_other Fs1 F Fs2 i :
  pw_disjoint (Fs1 ++ F :: Fs2) -> F i = true -> union Fs1 i = false.
Proof.
  intros HD HF. unfold union. destruct (existsb _ Fs1) eqn:E; [|easy].
  apply existsb_exists in E. destruct E as [G [HG Gi]].
  apply In_nth_error in HG. destruct HG as [n Hn].
  assert (Ln : (n < length Fs1)%nat) by (apply nth_error_Some; congruence).
  assert (D : disjoint F G).
  { apply (HD (length Fs1) n); [| |lia].
    - rewrite nth_error_app2 by lia. now rewrite Nat.sub_diag.
    - now rewrite nth_error_app1. }
  apply D in HF. congruence.
Qed.

Lemma cstep_serial Fs ps g ps' g' :
  Forall2 touches Fs ps -> pw_disjoint Fs -> gwf g ->
  cstep (ps, g) (ps', g') ->
  run (pseq ps') g' = run (pseq ps) g /\ Forall2 touches Fs ps' /\ gwf g'.
Proof.
  intros HT HD W HS. inversion HS as [l1 i k l2 g0 v Hv|l1 i v k l2 g0]; subst.
  - apply Forall2_app_inv_r in HT. destruct HT as [Fs1 [Fs2' [HT1 [HT2 E]]]].
    inversion HT2 as [|F ? Fs2 ? HF HT3]; subst. destruct HF as [Fi HF].
    split; [|split; [|easy]].
    + rewrite !run_pseq_app. destruct (run (pseq l1) g') as [[u g1]|] eqn:E1; [|easy].
      rewrite !run_pseq_cons. cbn [run].
      rewrite (run_frame (union Fs1) _ _ _ _ i (touches_union _ _ HT1) W E1).
      * now rewrite Hv.
      * eapply union_other; eauto.
    + apply Forall2_app; [easy|]. constructor; [apply HF|easy].
  - apply Forall2_app_inv_r in HT. destruct HT as [Fs1 [Fs2' [HT1 [HT2 E]]]].
    inversion HT2 as [|F ? Fs2 ? HF HT3]; subst. destruct HF as [Fi HF].
    split; [|split; [|now apply gset_wf]].
    + rewrite !run_pseq_app.
      rewrite (run_gset_comm (union Fs1) _ _ _ _ (touches_union _ _ HT1) W);
        [|eapply union_other; eauto].
      destruct (run (pseq l1) g) as [[u g1]|]; [|easy]. rewrite !run_pseq_cons. easy.
    + apply Forall2_app; [easy|]. constructor; [apply HF|easy].
Qed.

Lemma csteps_serial Fs ps g ps' g' :
  Forall2 touches Fs ps -> pw_disjoint Fs -> gwf g ->
  csteps (ps, g) (ps', g') ->
  run (pseq ps') g' = run (pseq ps) g /\ Forall2 touches Fs ps' /\ gwf g'.
Proof.
  intros HT HD W HS. remember (ps, g) as s eqn:Es. remember (ps', g') as s' eqn:Es'.
  revert ps g Es HT W. induction HS as [s|s1 [ps1 g1] s3 H1 H2 IH]; intros ps g Es HT W.
  - rewrite Es in Es'. injection Es' as -> ->. easy.
  - subst s1. destruct (cstep_serial _ _ _ _ _ HT HD W H1) as [E [HT1 W1]].
    destruct (IH Es' ps1 g1 eq_refl HT1 W1) as [E2 [HT2 W2]].
    split; [congruence|easy].
Qed.

Lemma run_done ps g : done ps -> run (pseq ps) g = Some (tt, g).
Proof.
  induction 1 as [|p ps Hp HR IH]; [easy|]. rewrite run_pseq_cons, Hp. cbn. apply IH.
Qed.

Lemma not_done_step ps g u g' :
  run (pseq ps) g = Some (u, g') -> gwf g ->
  done ps \/ exists s, cstep (ps, g) s.
Proof.
  intros H W. induction ps as [|p ps IH]; [left; constructor|].
  rewrite run_pseq_cons in H. destruct p as [r|i k|i v k|].
  - destruct r. cbn in H. destruct (IH H) as [HD|[s Hs]].
    + left. now constructor.
    + right. inversion Hs as [l1 i k l2 g0 v Hv|l1 i v k l2 g0]; subst.
      * eexists. apply (cstep_rd (Ret tt :: l1)). exact Hv.
      * eexists. apply (cstep_wr (Ret tt :: l1)).
  - right. cbn in H. destruct (gget g i) as [v|] eqn:E; [|discriminate].
    eexists. apply (cstep_rd []). exact E.
  - right. eexists. apply (cstep_wr []).
  - discriminate.
Qed.

(** *** Termination of every schedule *)

Inductive lstep : list (prog V unit) -> list (prog V unit) -> Prop :=
| lstep_rd l1 i k l2 v : lstep (l1 ++ k v :: l2) (l1 ++ Rd i k :: l2)
| lstep_wr l1 i v k l2 : lstep (l1 ++ k :: l2) (l1 ++ Wr i v k :: l2).

Lemma lstep_cons q p ps :
  lstep q (p :: ps) ->
  (exists i k v, p = Rd i k /\ q = k v :: ps) \/ (exists i v k, p = Wr i v k /\ q = k :: ps) \/
  (exists ps', q = p :: ps' /\ lstep ps' ps).
Proof.
  intros H. inversion H as [l1 i k l2 v E1 E2|l1 i v k l2 E1 E2]; subst.
  - destruct l1 as [|x l1]; cbn in *; injection E2 as Ep Eps; subst.
    + left. now exists i, k, v.
    + right; right. eexists. split; [reflexivity|constructor].
  - destruct l1 as [|x l1]; cbn in *; injection E2 as Ep Eps; subst.
    + right; left. now exists i, v, k.
    + right; right. eexists. split; [reflexivity|constructor].
Qed.

Lemma lstep_wf ps : Acc lstep ps.
Proof.
  induction ps as [|p ps IHps].
  - constructor. intros y H. inversion H as [l1 i k l2 v E1 E|l1 i v k l2 E1 E];
      destruct l1; discriminate.
  - revert ps IHps. induction p as [r|i k IH|i v k IH|]; intros ps Aps;
      induction Aps as [ps Hps IHps]; constructor; intros q Hq;
      destruct (lstep_cons _ _ _ Hq) as [[i' [k' [v' [E ->]]]]|[[i' [v' [k' [E ->]]]]|[ps' [-> Hl]]]];
      try discriminate; try (apply IHps; exact Hl).
    + injection E as <- <-. apply IH. now constructor.
    + injection E as <- <- <-. apply IH. now constructor.
Qed.

Lemma cstep_lstep ps g ps' g' : cstep (ps, g) (ps', g') -> lstep ps' ps.
Proof. intros H. inversion H; subst; constructor. Qed.

Lemma cstep_wf (s : list (prog V unit) * grid V) : Acc (fun b a => cstep a b) s.
Proof.
  destruct s as [ps g]. revert g. induction (lstep_wf ps) as [ps _ IH]; intros g.
  constructor. intros [ps' g'] H. apply IH. eapply cstep_lstep; eauto.
Qed.

(** *** No data race *)

Lemma not_racy Fs ps : Forall2 touches Fs ps -> pw_disjoint Fs -> ~ racy ps.
Proof.
  intros HT HD (l1 & p & l2 & q & l3 & i & w1 & w2 & -> & Hp & Hq & _).
  apply Forall2_app_inv_r in HT. destruct HT as [Fs1 [Fs2 [HT1 [HT2 ->]]]].
  inversion HT2 as [|F ? Fs3 ? HF HT3]; subst.
  apply Forall2_app_inv_r in HT3. destruct HT3 as [Fs4 [Fs5 [HT4 [HT5 ->]]]].
  inversion HT5 as [|G ? Fs6 ? HG HT6]; subst.
  assert (D : disjoint F G).
  { apply (HD (length Fs1) (length Fs1 + S (length Fs4))%nat); [| |lia].
    - rewrite nth_error_app2 by lia. now rewrite Nat.sub_diag.
    - rewrite nth_error_app2 by lia.
      replace (length Fs1 + S (length Fs4) - length Fs1)%nat with (S (length Fs4)) by lia.
      cbn. rewrite nth_error_app2 by lia. now rewrite Nat.sub_diag. }
  assert (Fi : F i = true) by (destruct p; cbn in *; try discriminate; destruct HF; congruence).
  assert (Gi : G i = true) by (destruct q; cbn in *; try discriminate; destruct HG; congruence).
  apply D in Fi. congruence.
Qed.

(** *** Permuting disjoint tasks *)

Lemma run_perm {A} (f : A -> prog V unit) (Fp : A -> idx -> bool) l l' g :
  Permutation l l' ->
  (forall a, In a l -> touches (Fp a) (f a)) ->
  (forall a b, In a l -> In b l -> a <> b -> disjoint (Fp a) (Fp b)) ->
  NoDup l -> gwf g ->
  run (pseq (map f l)) g = run (pseq (map f l')) g.
Proof.
  intros HP. revert g. induction HP as [|x l l' HP IH|x y l|l l' l'' H1 IH1 H2 IH2];
    intros g HT HD HN W.
  - easy.
  - cbn [map]. rewrite !run_pseq_cons. destruct (run (f x) g) as [[u g']|] eqn:E; [|easy].
    inversion HN; subst. apply IH.
    + intros a Ha. apply HT. now right.
    + intros a b Ha Hb. apply HD; now right.
    + easy.
    + eapply run_wf; eauto.
  - inversion HN as [|? ? Ny _]; subst.
    assert (Nxy : y <> x) by (intros ->; apply Ny; now left).
    cbn [map]. rewrite !run_pseq_cons.
    assert (C := run_comm (Fp y) (Fp x) (f y) (f x) g (HT y (or_introl eq_refl))
                   (HT x (or_intror (or_introl eq_refl)))
                   (HD y x (or_introl eq_refl) (or_intror (or_introl eq_refl)) Nxy) W).
    destruct (run (f y) g) as [[u1 g1]|] eqn:E1.
    + rewrite run_pseq_cons. destruct (run (f x) g1) as [[u2 g2]|] eqn:E2;
        destruct (run (f x) g) as [[u3 g3]|] eqn:E3; try discriminate; try easy.
      * rewrite run_pseq_cons. destruct (run (f y) g3) as [[u4 g4]|]; [|discriminate].
        now injection C as -> -> ->.
      * rewrite run_pseq_cons. destruct (run (f y) g3) as [[u4 g4]|]; [discriminate|easy].
    + destruct (run (f x) g) as [[u3 g3]|] eqn:E3; [|easy].
      rewrite run_pseq_cons. destruct (run (f y) g3) as [[u4 g4]|]; [discriminate|easy].
  - rewrite IH1 by easy. apply IH2.
    + intros a Ha. apply HT. eapply Permutation_in; [apply Permutation_sym; exact H1|easy].
    + intros a b Ha Hb. apply HD; eapply Permutation_in; try (apply Permutation_sym; exact H1); easy.
    + eapply Permutation_NoDup; eauto.
    + easy.
Qed.

Lemma run_threads {A} (f : A -> prog V unit) sched g :
  run (pseq (threads f sched)) g = run (pseq (map f (concat sched))) g.
Proof.
  revert g. induction sched as [|ts sched IH]; intros g; [easy|].
  cbn [threads map concat]. rewrite run_pseq_cons, map_app, run_pseq_app.
  destruct (run (pseq (map f ts)) g) as [[u g']|]; [|easy]. apply IH.
Qed.

Lemma NoDup_concat_disj {A} (ll : list (list A)) a b l1 l2 x :
  NoDup (concat ll) -> nth_error ll a = Some l1 -> nth_error ll b = Some l2 -> a <> b ->
  In x l1 -> In x l2 -> False.
Proof.
  revert a b. induction ll as [|l ll IH]; intros a b HN Ha Hb Hab H1 H2; [destruct a; discriminate|].
  assert (HN2 : NoDup (concat ll)).
  { cbn in HN. clear -HN. induction l as [|y l IHl]; [easy|]. apply IHl. now inversion HN. }
  assert (HX : forall x, In x l -> ~ In x (concat ll)).
  { cbn in HN. clear -HN. induction l as [|y l IHl]; intros x Hx; [easy|].
    inversion HN as [|? ? H1 H2]; subst. destruct Hx as [<-|Hx].
    - intros Hc. apply H1. apply in_or_app. now right.
    - now apply IHl. }
  destruct a as [|a], b as [|b]; cbn in *.
  - easy.
  - injection Ha as ->. apply (HX x H1). apply in_concat. exists l2.
    split; [eapply nth_error_In; eauto|easy].
  - injection Hb as ->. apply (HX x H2). apply in_concat. exists l1.
    split; [eapply nth_error_In; eauto|easy].
  - eapply (IH a b); eauto.
Qed.

Lemma sched_footprints (f : Z -> prog V unit) (Fp : Z -> idx -> bool) n sched :
  (forall a, 0 <= a < n -> touches (Fp a) (f a)) ->
  (forall a b, 0 <= a < n -> 0 <= b < n -> a <> b -> disjoint (Fp a) (Fp b)) ->
  schedules sched n ->
  exists Fs, Forall2 touches Fs (threads f sched) /\ pw_disjoint Fs.
Proof.
  intros HT HD HS.
  assert (HIn : forall ts x, In ts sched -> In x ts -> 0 <= x < n).
  { intros ts x Hts Hx. apply in_zrange. eapply Permutation_in; [exact HS|].
    apply in_concat. now exists ts. }
  assert (HND : NoDup (concat sched)).
  { eapply Permutation_NoDup; [apply Permutation_sym; exact HS|apply NoDup_zrange]. }
  exists (map (fun ts => union (map Fp ts)) sched). split.
  - unfold threads. clear HS HND. induction sched as [|ts sched IH]; cbn; constructor.
    + apply touches_union. assert (Hts : forall x, In x ts -> 0 <= x < n).
      { intros x Hx. apply (HIn ts x); [now left|easy]. }
      clear -HT Hts. induction ts as [|t ts IH]; cbn; constructor.
      * apply HT, Hts. now left.
      * apply IH. intros; apply Hts; now right.
    + apply IH. intros ts' x Hts'. apply HIn. now right.
  - intros a b F G Ha Hb Hab i Hi.
    rewrite nth_error_map in Ha, Hb.
    destruct (nth_error sched a) as [l1|] eqn:E1; [|discriminate].
    destruct (nth_error sched b) as [l2|] eqn:E2; [|discriminate].
    injection Ha as <-. injection Hb as <-. unfold union in *.
    apply existsb_exists in Hi. destruct Hi as [F [HF Fi]].
    apply in_map_iff in HF. destruct HF as [x [<- Hx]].
    destruct (existsb _ (map Fp l2)) eqn:E; [|easy].
    apply existsb_exists in E. destruct E as [G [HG Gi]].
    apply in_map_iff in HG. destruct HG as [y [<- Hy]].
    assert (Nxy : x <> y).
    { intros ->. eapply (NoDup_concat_disj sched a b l1 l2 y); eauto. }
    assert (D : disjoint (Fp x) (Fp y)).
    { apply HD; [eapply HIn; [eapply nth_error_In, E1|easy]
                |eapply HIn; [eapply nth_error_In, E2|easy]|easy]. }
    apply D in Fi. congruence.
Qed.

(** A loop whose iterations work on pairwise disjoint cells. *)
Definition separated (p : phase V) : Prop :=
  exists Fp : Z -> idx -> bool,
    (forall a, 0 <= a < p_count p -> touches (Fp a) (p_task p a)) /\
    (forall a b, 0 <= a < p_count p -> 0 <= b < p_count p -> a <> b -> disjoint (Fp a) (Fp b)).

Lemma run_sched (f : Z -> prog V unit) (Fp : Z -> idx -> bool) n sched g :
  (forall a, 0 <= a < n -> touches (Fp a) (f a)) ->
  (forall a b, 0 <= a < n -> 0 <= b < n -> a <> b -> disjoint (Fp a) (Fp b)) ->
  schedules sched n -> gwf g ->
  run (pseq (threads f sched)) g = run (pseq (map f (zrange 0 n))) g.
Proof.
  intros HT HD HS W. rewrite run_threads. apply (run_perm f Fp); try easy.
  - intros a Ha. apply HT. apply in_zrange. eapply Permutation_in; eauto.
  - intros a b Ha Hb. apply HD; apply in_zrange; eapply Permutation_in; eauto.
  - eapply Permutation_NoDup; [apply Permutation_sym; exact HS|apply NoDup_zrange].
Qed.

Definition minv (gs : grid V) (s : mstate V) : Prop :=
  let '(ps, g, rest) := s in
  gwf g /\ Forall separated rest /\
  (exists Fs, Forall2 touches Fs ps /\ pw_disjoint Fs) /\
  exists g1, run (pseq ps) g = Some (tt, g1) /\ run_phases rest g1 = Some gs.

Lemma mstep_inv gs s s' : minv gs s -> mstep s s' -> minv gs s'.
Proof.
  intros HI HS. inversion HS as [ps g ps' g' rest HC|ps g p rest sched HD HSch]; subst.
  - destruct HI as [W [HR [[Fs [HT HDs]] [g1 [E1 E2]]]]].
    destruct (cstep_serial _ _ _ _ _ HT HDs W HC) as [E [HT' W']].
    split; [easy|]. split; [easy|]. split; [now exists Fs|]. exists g1.
    now rewrite E.
  - destruct HI as [W [HR [_ [g1 [E1 E2]]]]].
    rewrite (run_done _ _ HD) in E1. injection E1 as <-.
    inversion HR as [|? ? HP HR']; subst. destruct HP as [Fp [HT HDj]].
    split; [easy|]. split; [easy|].
    split; [eapply sched_footprints; eauto|].
    cbn in E2. unfold run_phase in E2 at 1.
    destruct (run (pseq (map (p_task p) (zrange 0 (p_count p)))) g) as [[[] g2]|] eqn:E; [|discriminate].
    exists g2. split; [|exact E2]. rewrite <- E. eapply run_sched; eauto.
Qed.

Lemma mstep_wf (s : mstate V) : Acc (fun b a => mstep a b) s.
Proof.
  destruct s as [[ps g] rest]. revert ps g. induction rest as [|p rest IH]; intros ps g;
    induction (cstep_wf (ps, g)) as [s _ IHs] in ps, g |- *.
  - constructor. intros s' HS. inversion HS; subst. now apply IHs.
  - constructor. intros s' HS. inversion HS; subst; [now apply IHs|apply IH].
Qed.

(** Phased parallel loops: with iterations on disjoint cells, under every hand-out
    of iterations and every interleaving the execution is free of data races, never
    gets stuck, terminates, and ends in the sequential result. *)
Theorem phases_deterministic (phs : list (phase V)) g gs :
  gwf g -> Forall separated phs -> run_phases phs g = Some gs ->
  Acc (fun b a => mstep a b) ([], g, phs) /\
  forall s, msteps ([], g, phs) s ->
    ~ racy (mthreads s) /\
    (mfinished s -> mgrid s = gs) /\
    (mfinished s \/ exists s', mstep s s').
Proof.
  intros W HSep HR. split; [apply mstep_wf|]. intros s HS.
  assert (HI : minv gs s).
  { assert (H0 : minv gs ([], g, phs)).
    { split; [easy|]. split; [easy|]. split; [|now exists g].
      exists []. split; [constructor|]. intros a b F G Ha. destruct a; discriminate. }
    clear HR HSep W. induction HS as [s|s1 s2 s3 H1 H2 IH]; [easy|].
    apply IH. eapply mstep_inv; eauto. }
  destruct s as [[ps g'] rest]. destruct HI as [W' [HR' [[Fs [HT HD]] [g1 [E1 E2]]]]].
  unfold mthreads, mgrid, mfinished; cbn. split; [eapply not_racy; eauto|]. split.
  - intros [HDn ->]. rewrite (run_done _ _ HDn) in E1. injection E1 as <-. cbn in E2. congruence.
  - destruct (not_done_step _ _ _ _ E1 W') as [HDn|[[ps' g2] HC]].
    + destruct rest as [|p rest]; [now left|]. right.
      exists (threads (p_task p) [zrange 0 (p_count p)], g', rest). constructor; [easy|].
      unfold schedules. cbn. rewrite app_nil_r. apply Permutation_refl.
    + right. exists (ps', g2, rest). now constructor.
Qed.

End Sched.
