(** Programs that read and write the cells of one shared grid.

    The parallel loops of /repo work in place on a grid shared by all threads, so
    their bodies are modelled as explicit sequences of cell reads and cell writes.
    [run] executes one program alone; [cstep] interleaves several programs at the
    granularity of single cell accesses. *)
From Coq Require Import ZArith List Lia Bool.
From Verif Require Import Util Grid.
Import ListNotations.
Local Open Scope Z_scope.

Section Prog.
Context {V : Type}.

(** [Fail] stands for an out-of-range access to a scratch array, or for a loop
    whose bound was exhausted; theorems show it is never reached. *)
Inductive prog (R : Type) : Type :=
| Ret (r : R)
| Rd (i : idx) (k : V -> prog R)
| Wr (i : idx) (v : V) (k : prog R)
| Fail.
Arguments Ret {R}. Arguments Rd {R}. Arguments Wr {R}. Arguments Fail {R}.

Fixpoint pbind {A B} (p : prog A) (f : A -> prog B) : prog B :=
  match p with
  | Ret r => f r
  | Rd i k => Rd i (fun v => pbind (k v) f)
  | Wr i v k => Wr i v (pbind k f)
  | Fail => Fail
  end.

Definition lift {A} (o : option A) : prog A :=
  match o with Some a => Ret a | None => Fail end.

(** [GetIndexImmutable(i).Value()] and [SetIndex(i, v)]. *)
Definition read (i : idx) : prog V := Rd i Ret.
Definition write (i : idx) (v : V) : prog unit := Wr i v (Ret tt).

Fixpoint pfold {A B} (f : A -> B -> prog A) (l : list B) (a : A) : prog A :=
  match l with
  | [] => Ret a
  | x :: t => pbind (f a x) (fun a' => pfold f t a')
  end.

Fixpoint pseq (l : list (prog unit)) : prog unit :=
  match l with
  | [] => Ret tt
  | p :: t => pbind p (fun _ => pseq t)
  end.

(** Sequential execution.  Reading out of bounds throws (no result); writing out
    of bounds has no effect. *)
Fixpoint run {A} (p : prog A) (g : grid V) : option (A * grid V) :=
  match p with
  | Ret r => Some (r, g)
  | Rd i k => match gget g i with Some v => run (k v) g | None => None end
  | Wr i v k => run k (gset g i v)
  | Fail => None
  end.

(** One thread performs its next access. *)
Inductive cstep : list (prog unit) * grid V -> list (prog unit) * grid V -> Prop :=
| cstep_rd l1 i k l2 g v :
    gget g i = Some v -> cstep (l1 ++ Rd i k :: l2, g) (l1 ++ k v :: l2, g)
| cstep_wr l1 i v k l2 g :
    cstep (l1 ++ Wr i v k :: l2, g) (l1 ++ k :: l2, gset g i v).

Inductive csteps : list (prog unit) * grid V -> list (prog unit) * grid V -> Prop :=
| csteps_refl s : csteps s s
| csteps_cons s1 s2 s3 : cstep s1 s2 -> csteps s2 s3 -> csteps s1 s3.

Definition done (ps : list (prog unit)) : Prop := Forall (fun p => p = Ret tt) ps.

(** All accesses of [p] are inside [F], whatever values it reads. *)
Fixpoint touches {A} (F : idx -> bool) (p : prog A) : Prop :=
  match p with
  | Ret _ | Fail => True
  | Rd i k => F i = true /\ forall v, touches F (k v)
  | Wr i _ k => F i = true /\ touches F k
  end.

(** Next access of a program, as (cell, is it a write). *)
Definition next_access (p : prog unit) : option (idx * bool) :=
  match p with
  | Rd i _ => Some (i, false)
  | Wr i _ _ => Some (i, true)
  | _ => None
  end.

(** Two different threads are about to access the same cell and one of them writes:
    a data race, undefined behaviour in C++. *)
Definition racy (ps : list (prog unit)) : Prop :=
  exists l1 p l2 q l3 i w1 w2,
    ps = l1 ++ p :: l2 ++ q :: l3 /\ next_access p = Some (i, w1) /\
    next_access q = Some (i, w2) /\ w1 || w2 = true.

(** ** Sequential reasoning *)

Lemma run_bind {A B} (p : prog A) (f : A -> prog B) g :
  run (pbind p f) g = match run p g with Some (r, g') => run (f r) g' | None => None end.
Proof.
  revert g. induction p as [r|i k IH|i v k IH|]; intros g; cbn; try easy.
  destruct (gget g i); [apply IH|easy].
Qed.

Definition wp {A} (p : prog A) (g : grid V) (Q : A -> grid V -> Prop) : Prop :=
  match run p g with Some (r, g') => Q r g' | None => False end.

Lemma wp_ret {A} (r : A) g (Q : A -> grid V -> Prop) : Q r g -> wp (Ret r) g Q.
Proof. easy. Qed.

Lemma wp_bind {A B} (p : prog A) (f : A -> prog B) g Q :
  wp p g (fun r g' => wp (f r) g' Q) -> wp (pbind p f) g Q.
Proof.
  unfold wp. rewrite run_bind. destruct (run p g) as [[r g']|]; easy.
Qed.

Lemma wp_mono {A} (p : prog A) g (Q Q' : A -> grid V -> Prop) :
  wp p g Q -> (forall r g', Q r g' -> Q' r g') -> wp p g Q'.
Proof. unfold wp. destruct (run p g) as [[r g']|]; auto. Qed.

Lemma wp_read i g v (Q : V -> grid V -> Prop) :
  gget g i = Some v -> Q v g -> wp (read i) g Q.
Proof. unfold wp, read; cbn. intros ->. easy. Qed.

Lemma wp_write i v g (Q : unit -> grid V -> Prop) :
  Q tt (gset g i v) -> wp (write i v) g Q.
Proof. easy. Qed.

Lemma wp_lift {A} (o : option A) a g (Q : A -> grid V -> Prop) :
  o = Some a -> Q a g -> wp (lift o) g Q.
Proof. intros ->. easy. Qed.

Lemma wp_pfold_zrange {A} (f : A -> Z -> prog A) (P : Z -> A -> grid V -> Prop) lo hi a0 g0 :
  lo <= hi -> P lo a0 g0 ->
  (forall q a g, lo <= q < hi -> P q a g -> wp (f a q) g (fun a' g' => P (q + 1) a' g')) ->
  wp (pfold f (zrange lo hi) a0) g0 (fun a g => P hi a g).
Proof.
  intros Hle H0 Hs.
  remember (Z.to_nat (hi - lo)) as n eqn:En.
  revert lo a0 g0 Hle H0 Hs En. induction n as [|n IH]; intros lo a0 g0 Hle H0 Hs En.
  - assert (lo = hi) by lia. subst lo. rewrite zrange_nil by lia. cbn. now apply wp_ret.
  - rewrite zrange_cons by lia. cbn [pfold]. apply wp_bind.
    eapply wp_mono; [apply Hs; [lia|easy]|].
    intros a' g' HP. apply IH; [lia|easy| |lia].
    intros q a g Hq. apply Hs. lia.
Qed.

Lemma run_pseq_cons p l g :
  run (pseq (p :: l)) g = match run p g with Some (_, g') => run (pseq l) g' | None => None end.
Proof. cbn [pseq]. rewrite run_bind. destruct (run p g) as [[r g']|]; easy. Qed.

Lemma run_pseq_app l1 l2 g :
  run (pseq (l1 ++ l2)) g =
  match run (pseq l1) g with Some (_, g') => run (pseq l2) g' | None => None end.
Proof.
  revert g. induction l1 as [|p l1 IH]; intros g; [easy|].
  cbn [app]. rewrite !run_pseq_cons. destruct (run p g) as [[r g']|]; [|easy]. apply IH.
Qed.

Lemma run_pseq_map_zrange {A} (l : list A) f (P : list A -> grid V -> Prop) g :
  P [] g ->
  (forall pre x post g', l = pre ++ x :: post -> P pre g' ->
     exists g'', run (f x) g' = Some (tt, g'') /\ P (pre ++ [x]) g'') ->
  exists g', run (pseq (map f l)) g = Some (tt, g') /\ P l g'.
Proof.
  intros H0 Hs.
  cut (forall pre post g', l = pre ++ post -> P pre g' ->
        exists g'', run (pseq (map f post)) g' = Some (tt, g'') /\ P l g'').
  { intros C. now apply (C [] l g). }
  intros pre post. revert pre. induction post as [|x post IH]; intros pre g' E HP.
  - rewrite app_nil_r in E. subst pre. now exists g'.
  - destruct (Hs pre x post g' E HP) as [g'' [Hr HP']].
    destruct (IH (pre ++ [x]) g'') as [g3 [H3 HP3]].
    + rewrite E, <- app_assoc. easy.
    + easy.
    + exists g3. cbn [map]. rewrite run_pseq_cons, Hr. easy.
Qed.

(** ** Footprints *)

Lemma touches_bind {A B} F (p : prog A) (f : A -> prog B) :
  touches F p -> (forall a, touches F (f a)) -> touches F (pbind p f).
Proof.
  intros Hp Hf. induction p as [r|i k IH|i v k IH|]; cbn in *; [apply Hf| | |easy].
  - destruct Hp. split; [easy|]. intros v. now apply IH.
  - destruct Hp. split; [easy|]. now apply IH.
Qed.

Lemma touches_lift {A} F (o : option A) : touches F (lift o).
Proof. now destruct o. Qed.

Lemma touches_read F i : F i = true -> touches F (read i).
Proof. easy. Qed.

Lemma touches_write F i v : F i = true -> touches F (write i v).
Proof. easy. Qed.

Lemma touches_pfold {A B} F (f : A -> B -> prog A) l :
  (forall a b, In b l -> touches F (f a b)) -> forall a, touches F (pfold f l a).
Proof.
  induction l as [|x t IH]; intros H a; cbn; [easy|].
  apply touches_bind; [apply H; now left|]. intros a'. apply IH. intros; apply H; now right.
Qed.

Lemma touches_pseq F l : Forall (touches F) l -> touches F (pseq l).
Proof.
  induction 1 as [|p l Hp Hl IH]; cbn; [easy|]. apply touches_bind; [easy|]. now intros _.
Qed.

Lemma touches_weaken {A} (F G : idx -> bool) (p : prog A) :
  (forall i, F i = true -> G i = true) -> touches F p -> touches G p.
Proof.
  intros H. induction p as [r|i k IH|i v k IH|]; cbn; try easy.
  - intros [Hi Hk]. split; [auto|]. intros v. now apply IH.
  - intros [Hi Hk]. split; [auto|]. now apply IH.
Qed.

Lemma run_wf {A} (p : prog A) g r g' :
  run p g = Some (r, g') -> gwf g -> gwf g' /\ same_dims g' g.
Proof.
  revert g. induction p as [r0|i k IH|i v k IH|]; intros g; cbn; try discriminate.
  - intros [= <- <-] W. split; [easy|apply same_dims_refl].
  - destruct (gget g i) as [v|]; [|discriminate]. apply IH.
  - intros H W. destruct (IH _ H (gset_wf _ _ _ W)) as [W' D]. split; [easy|].
    eapply same_dims_trans; [exact D|apply gset_same_dims].
Qed.

Lemma run_frame {A} F (p : prog A) g r g' i :
  touches F p -> gwf g -> run p g = Some (r, g') -> F i = false -> gget g' i = gget g i.
Proof.
  intros HT. revert g. induction p as [r0|j k IH|j v k IH|]; intros g W H HF; cbn in *;
    try discriminate.
  - injection H as <- <-. easy.
  - destruct (gget g j) as [v|]; [|discriminate]. destruct HT as [_ HT].
    eapply IH; eauto.
  - destruct HT as [Hj HT]. rewrite (IH HT _ (gset_wf _ _ _ W) H HF).
    apply gget_gset_other; [easy|]. intros ->. congruence.
Qed.

(** A write elsewhere before the program is the same write after it. *)
Lemma gset_comm (g : grid V) i j v w :
  gwf g -> i <> j -> gset (gset g i v) j w = gset (gset g j w) i v.
Proof.
  intros W N.
  assert (D : same_dims (gset (gset g i v) j w) (gset (gset g j w) i v)).
  { eapply same_dims_trans; [apply gset_same_dims|].
    eapply same_dims_trans; [apply gset_same_dims|].
    apply same_dims_sym. eapply same_dims_trans; [apply gset_same_dims|].
    apply gset_same_dims. }
  pose proof (gset_wf g i v W) as W1. pose proof (gset_wf g j w W) as W2. apply grid_ext; [now apply gset_wf|now apply gset_wf|exact D|].
  intros x _. rewrite !gget_gset by assumption.
  rewrite !gset_in_bounds.
  destruct (idx_eqb x i) eqn:Ei, (idx_eqb x j) eqn:Ej; cbn;
    rewrite ?andb_false_r, ?andb_true_r; try easy.
  apply idx_eqb_eq in Ei, Ej. congruence.
Qed.

Lemma run_gset_comm {A} F (p : prog A) g i v :
  touches F p -> gwf g -> F i = false ->
  run p (gset g i v) =
  match run p g with Some (r, g') => Some (r, gset g' i v) | None => None end.
Proof.
  intros HT. revert g. induction p as [r0|j k IH|j w k IH|]; intros g W HF; cbn in *; try easy.
  - destruct HT as [Hj HT]. rewrite gget_gset_other by (try easy; intros ->; congruence).
    destruct (gget g j); [|easy]. apply IH; easy.
  - destruct HT as [Hj HT]. rewrite gset_comm by (try easy; intros ->; congruence).
    apply IH; [easy|now apply gset_wf|easy].
Qed.

(** Programs with disjoint footprints commute. *)
Lemma run_comm {A B} F G (p : prog A) (q : prog B) g :
  touches F p -> touches G q -> (forall i, F i = true -> G i = false) -> gwf g ->
  match run p g with
  | Some (r, g') => match run q g' with Some (s, g'') => Some (r, s, g'') | None => None end
  | None => None
  end =
  match run q g with
  | Some (s, g') => match run p g' with Some (r, g'') => Some (r, s, g'') | None => None end
  | None => None
  end.
Proof.
  intros HP HQ HD. revert g. induction p as [r0|j k IH|j w k IH|]; intros g W; cbn in *.
  - destruct (run q g) as [[s g']|]; easy.
  - destruct HP as [Hj HP]. destruct (gget g j) as [v|] eqn:E.
    + rewrite IH by easy. destruct (run q g) as [[s g']|] eqn:Eq; [|easy].
      rewrite (run_frame _ _ _ _ _ _ HQ W Eq (HD _ Hj)), E. easy.
    + destruct (run q g) as [[s g']|] eqn:Eq; [|easy].
      rewrite (run_frame _ _ _ _ _ _ HQ W Eq (HD _ Hj)), E. easy.
  - destruct HP as [Hj HP]. rewrite IH by (try easy; now apply gset_wf).
    rewrite (run_gset_comm _ _ _ _ _ HQ W (HD _ Hj)).
    destruct (run q g) as [[s g']|]; easy.
  - destruct (run q g) as [[s g']|]; easy.
Qed.

End Prog.

Arguments prog : clear implicits.
Arguments Ret {V R}. Arguments Rd {V R}. Arguments Wr {V R}. Arguments Fail {V R}.

Declare Scope prog_scope.
Delimit Scope prog_scope with prog.
Notation "'let!' x ':=' a 'in' b" := (pbind a (fun x => b))
  (at level 200, x pattern, a at level 100, b at level 200) : prog_scope.
