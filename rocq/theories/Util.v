(** Shared helpers: option sequencing, integer ranges, Z-indexed lists.
    Nothing here models code of /repo; it is the vocabulary of the models. *)
From Coq Require Import ZArith List Lia Bool ZifyBool.
Import ListNotations.
Local Open Scope Z_scope.

Definition obind {A B} (a : option A) (f : A -> option B) : option B :=
  match a with Some x => f x | None => None end.
Notation "'let*' x ':=' a 'in' b" := (obind a (fun x => b))
  (at level 200, x pattern, a at level 100, b at level 200).

(** [zseq a n] is [a; a+1; ...; a+n-1]. *)
Fixpoint zseq (a : Z) (n : nat) : list Z :=
  match n with O => [] | S m => a :: zseq (a + 1) m end.

(** [zrange a b]: the values taken by [for (q = a; q < b; q++)]. *)
Definition zrange (a b : Z) : list Z := zseq a (Z.to_nat (b - a)).

(** Checked access to a vector: [None] stands for an out-of-range access. *)
Definition zget {A} (l : list A) (i : Z) : option A :=
  if i <? 0 then None else nth_error l (Z.to_nat i).

Fixpoint nset {A} (l : list A) (n : nat) (v : A) : option (list A) :=
  match l, n with
  | [], _ => None
  | _ :: t, O => Some (v :: t)
  | h :: t, S m => match nset t m v with Some t' => Some (h :: t') | None => None end
  end.

Definition zset {A} (l : list A) (i : Z) (v : A) : option (list A) :=
  if i <? 0 then None else nset l (Z.to_nat i) v.

Definition zlen {A} (l : list A) : Z := Z.of_nat (length l).

(** Left fold that stops at the first [None]. *)
Fixpoint ofold {A B} (f : A -> B -> option A) (l : list B) (a : A) : option A :=
  match l with [] => Some a | x :: t => let* a' := f a x in ofold f t a' end.

(** ** Lemmas *)

Lemma zseq_length a n : length (zseq a n) = n.
Proof. revert a; induction n as [|n IH]; intros a; cbn; [easy|]. now rewrite IH. Qed.

Lemma in_zseq x a n : In x (zseq a n) <-> a <= x < a + Z.of_nat n.
Proof.
  revert a; induction n as [|n IH]; intros a; cbn [zseq In]; [lia|].
  rewrite IH. lia.
Qed.

Lemma in_zrange x a b : In x (zrange a b) <-> a <= x < b.
Proof. unfold zrange. rewrite in_zseq. lia. Qed.

Lemma zrange_length a b : length (zrange a b) = Z.to_nat (b - a).
Proof. apply zseq_length. Qed.

Lemma zseq_app a n m : zseq a (n + m) = zseq a n ++ zseq (a + Z.of_nat n) m.
Proof.
  revert a; induction n as [|n IH]; intros a; cbn [plus zseq app].
  - f_equal; lia.
  - rewrite IH. do 3 f_equal. lia.
Qed.

Lemma zrange_app a b c : a <= b <= c -> zrange a c = zrange a b ++ zrange b c.
Proof.
  intros H. unfold zrange.
  replace (Z.to_nat (c - a)) with (Z.to_nat (b - a) + Z.to_nat (c - b))%nat by lia.
  rewrite zseq_app. do 2 f_equal. lia.
Qed.

Lemma zrange_nil a b : b <= a -> zrange a b = [].
Proof. intros H. unfold zrange. now replace (Z.to_nat (b - a)) with O by lia. Qed.

Lemma zrange_cons a b : a < b -> zrange a b = a :: zrange (a + 1) b.
Proof.
  intros H. unfold zrange.
  replace (Z.to_nat (b - a)) with (S (Z.to_nat (b - (a + 1)))) by lia. easy.
Qed.

Lemma zrange_snoc a b : a < b -> zrange a b = zrange a (b - 1) ++ [b - 1].
Proof.
  intros H. rewrite (zrange_app a (b - 1) b) by lia. f_equal.
  rewrite zrange_cons by lia. rewrite zrange_nil by lia. easy.
Qed.

Lemma NoDup_zrange a b : NoDup (zrange a b).
Proof.
  unfold zrange. generalize (Z.to_nat (b - a)); intros n. revert a.
  induction n as [|n IH]; intros a; cbn [zseq]; constructor.
  - rewrite in_zseq. lia.
  - apply IH.
Qed.

Lemma zlen_nonneg {A} (l : list A) : 0 <= zlen l.
Proof. unfold zlen. lia. Qed.

Lemma zget_some_iff {A} (l : list A) i : (exists v, zget l i = Some v) <-> 0 <= i < zlen l.
Proof.
  unfold zget, zlen. destruct (i <? 0) eqn:E.
  - split; [intros [v Hv]; discriminate|lia].
  - destruct (nth_error l (Z.to_nat i)) eqn:N.
    + split; [intros _|intros _; eauto].
      assert (Z.to_nat i < length l)%nat by (apply nth_error_Some; congruence). lia.
    + split; [intros [v Hv]; discriminate|intros H].
      apply nth_error_None in N. lia.
Qed.

Lemma zget_none_iff {A} (l : list A) i : zget l i = None <-> ~ (0 <= i < zlen l).
Proof.
  rewrite <- zget_some_iff. destruct (zget l i).
  - split; [discriminate|intros H; exfalso; apply H; eauto].
  - split; [intros _ [v Hv]; discriminate|easy].
Qed.

Lemma zget_range {A} (l : list A) i v : zget l i = Some v -> 0 <= i < zlen l.
Proof. intros H. apply zget_some_iff; eauto. Qed.

Lemma nset_length {A} (l : list A) n v l' : nset l n v = Some l' -> length l' = length l.
Proof.
  revert n l'; induction l as [|h t IH]; intros n l'; destruct n; cbn; try discriminate.
  - now intros [= <-].
  - destruct (nset t n v) eqn:E; [|discriminate]. intros [= <-]. cbn. erewrite IH; eauto.
Qed.

Lemma nset_some {A} (l : list A) n v : (n < length l)%nat -> exists l', nset l n v = Some l'.
Proof.
  revert n; induction l as [|h t IH]; intros n; destruct n; cbn; try lia; [eauto|].
  intros H. destruct (IH n) as [t' Ht]; [lia|]. rewrite Ht. eauto.
Qed.

Lemma nset_range {A} (l : list A) n v l' : nset l n v = Some l' -> (n < length l)%nat.
Proof.
  revert n l'; induction l as [|h t IH]; intros n l'; destruct n; cbn; try discriminate; [lia|].
  destruct (nset t n v) eqn:E; [|discriminate]. intros _. specialize (IH _ _ E). lia.
Qed.

Lemma nset_nth {A} (l : list A) n v l' m :
  nset l n v = Some l' ->
  nth_error l' m = if Nat.eqb m n then Some v else nth_error l m.
Proof.
  revert n m l'; induction l as [|h t IH]; intros n m l'; destruct n; cbn; try discriminate.
  - intros [= <-]. destruct m; cbn; easy.
  - destruct (nset t n v) eqn:E; [|discriminate]. intros [= <-].
    destruct m; cbn; [easy|]. eapply IH; eauto.
Qed.

Lemma zset_length {A} (l : list A) i v l' : zset l i v = Some l' -> zlen l' = zlen l.
Proof.
  unfold zset, zlen. destruct (i <? 0); [discriminate|]. intros H.
  apply nset_length in H. now rewrite H.
Qed.

Lemma zset_some {A} (l : list A) i v : 0 <= i < zlen l -> exists l', zset l i v = Some l'.
Proof.
  unfold zset, zlen. intros H. destruct (i <? 0) eqn:E; [lia|]. apply nset_some. lia.
Qed.

Lemma zset_none {A} (l : list A) i v : ~ (0 <= i < zlen l) -> zset l i v = None.
Proof.
  unfold zset, zlen. intros H. destruct (i <? 0) eqn:E; [easy|].
  destruct (nset l (Z.to_nat i) v) eqn:N; [|easy]. apply nset_range in N. lia.
Qed.

Lemma zset_range {A} (l : list A) i v l' : zset l i v = Some l' -> 0 <= i < zlen l.
Proof.
  intros H. destruct (Z_lt_dec i 0) as [L|L].
  - rewrite zset_none in H by lia. discriminate.
  - destruct (Z_lt_dec i (zlen l)); [lia|]. rewrite zset_none in H by lia. discriminate.
Qed.

Lemma zget_zset {A} (l : list A) i v l' j :
  zset l i v = Some l' -> zget l' j = if j =? i then Some v else zget l j.
Proof.
  intros H. pose proof (zset_range _ _ _ _ H) as R.
  unfold zset in H. destruct (i <? 0) eqn:E; [discriminate|].
  unfold zget. destruct (j <? 0) eqn:Ej.
  - destruct (j =? i) eqn:Eji; [lia|easy].
  - rewrite (nset_nth _ _ _ _ (Z.to_nat j) H).
    destruct (j =? i) eqn:Eji.
    + replace j with i by lia. now rewrite Nat.eqb_refl.
    + destruct (Nat.eqb (Z.to_nat j) (Z.to_nat i)) eqn:En; [|easy].
      apply Nat.eqb_eq in En. lia.
Qed.

Lemma zget_zset_same {A} (l : list A) i v l' : zset l i v = Some l' -> zget l' i = Some v.
Proof. intros H. rewrite (zget_zset _ _ _ _ _ H). now rewrite Z.eqb_refl. Qed.

Lemma zget_zset_other {A} (l : list A) i v l' j :
  zset l i v = Some l' -> j <> i -> zget l' j = zget l j.
Proof.
  intros H N. rewrite (zget_zset _ _ _ _ _ H). destruct (j =? i) eqn:E; [lia|easy].
Qed.

Lemma zget_ext {A} (l l' : list A) :
  zlen l = zlen l' -> (forall i, 0 <= i < zlen l -> zget l i = zget l' i) -> l = l'.
Proof.
  revert l'; induction l as [|h t IH]; intros [|h' t'] HL HE.
  - easy.
  - unfold zlen in HL; cbn in HL; lia.
  - unfold zlen in HL; cbn in HL; lia.
  - f_equal.
    + specialize (HE 0). unfold zlen, zget in HE; cbn in HE. assert (Some h = Some h') by (apply HE; lia). congruence.
    + apply IH.
      * unfold zlen in *; cbn in HL; lia.
      * intros i Hi. specialize (HE (i + 1)). unfold zlen, zget in *; cbn [length] in *.
        destruct (i <? 0) eqn:E1; [lia|]. destruct (i + 1 <? 0) eqn:E2; [lia|].
        replace (Z.to_nat (i + 1)) with (S (Z.to_nat i)) in HE by lia. cbn in HE.
        apply HE. lia.
Qed.

Lemma zget_repeat {A} (v : A) n i : 0 <= i < Z.of_nat n -> zget (repeat v n) i = Some v.
Proof.
  intros H. unfold zget. destruct (i <? 0) eqn:E; [lia|].
  assert (L : (Z.to_nat i < length (repeat v n))%nat) by (rewrite repeat_length; lia).
  destruct (nth_error (repeat v n) (Z.to_nat i)) eqn:N.
  - apply nth_error_In in N. apply repeat_spec in N. now subst.
  - apply nth_error_None in N. lia.
Qed.

Lemma zlen_repeat {A} (v : A) n : zlen (repeat v n) = Z.of_nat n.
Proof. unfold zlen. now rewrite repeat_length. Qed.

Lemma ofold_app {A B} (f : A -> B -> option A) l1 l2 a :
  ofold f (l1 ++ l2) a = let* a' := ofold f l1 a in ofold f l2 a'.
Proof.
  revert a; induction l1 as [|x t IH]; intros a; cbn; [easy|].
  destruct (f a x); cbn; [apply IH|easy].
Qed.

(** Loop rule for [ofold] over an integer range. *)
Lemma ofold_zrange_inv {A} (f : A -> Z -> option A) (P : Z -> A -> Prop) lo hi a0 :
  lo <= hi -> P lo a0 ->
  (forall i a, lo <= i < hi -> P i a -> exists a', f a i = Some a' /\ P (i + 1) a') ->
  exists a', ofold f (zrange lo hi) a0 = Some a' /\ P hi a'.
Proof.
  intros Hle H0 Hstep. unfold zrange.
  assert (G : forall n lo' a, lo <= lo' -> lo' + Z.of_nat n = hi -> P lo' a ->
              exists a', ofold f (zseq lo' n) a = Some a' /\ P hi a').
  { induction n as [|n IH]; intros lo' a L1 L2 HP; cbn [zseq ofold].
    - exists a. split; [easy|]. now replace hi with lo' by lia.
    - destruct (Hstep lo' a) as [a' [Ha HP']]; [lia|easy|]. rewrite Ha. cbn [obind].
      apply IH; [lia|lia|easy]. }
  apply G; [lia|lia|easy].
Qed.

Lemma forallb_zrange f a b :
  forallb f (zrange a b) = true <-> forall i, a <= i < b -> f i = true.
Proof.
  rewrite forallb_forall. split; intros H i Hi; apply H; now apply in_zrange.
Qed.

Lemma existsb_zrange f a b :
  existsb f (zrange a b) = true <-> exists i, a <= i < b /\ f i = true.
Proof.
  rewrite existsb_exists. split.
  - intros [i [Hi Hf]]. apply in_zrange in Hi. eauto.
  - intros [i [Hi Hf]]. exists i. split; [now apply in_zrange|easy].
Qed.
