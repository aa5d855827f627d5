(** What the Euclidean distance transform is supposed to compute, stated without
    reference to the model.  Distances are [option Z]: [None] is +infinity. *)
From Coq Require Import ZArith List Lia.
Local Open Scope Z_scope.

Definition dist : Type := option Z.

(** Order with [None] as the largest element. *)
Definition dle (a b : dist) : Prop :=
  match a, b with
  | _, None => True
  | None, Some _ => False
  | Some x, Some y => x <= y
  end.

Definition dadd (a : dist) (k : Z) : dist :=
  match a with Some x => Some (x + k) | None => None end.

(** [m] is the lower envelope at [q] of the [n] parabolas
    [fun q => F p + (q - p)^2]. *)
Definition is_min_parabola (n : Z) (F : Z -> dist) (q : Z) (m : dist) : Prop :=
  (forall p, 0 <= p < n -> dle m (dadd (F p) ((q - p) * (q - p)))) /\
  exists p, 0 <= p < n /\ m = dadd (F p) ((q - p) * (q - p)).

(** Squared Euclidean distance between voxel indices. *)
Definition sqdist (i j : Z * Z * Z) : Z :=
  let '(x, y, z) := i in let '(x', y', z') := j in
  (x - x') * (x - x') + (y - y') * (y - y') + (z - z') * (z - z').

(** [m] is the squared distance from [i] to the nearest element of [S]; infinite
    exactly when [S] has no element. *)
Definition is_nearest (S : Z * Z * Z -> Prop) (i : Z * Z * Z) (m : dist) : Prop :=
  match m with
  | Some d => (exists j, S j /\ sqdist i j = d) /\ (forall j, S j -> d <= sqdist i j)
  | None => forall j, ~ S j
  end.

Lemma dle_refl a : dle a a.
Proof. destruct a; cbn; lia. Qed.

Lemma dle_trans a b c : dle a b -> dle b c -> dle a c.
Proof. destruct a, b, c; cbn; try tauto; lia. Qed.

Lemma dle_antisym a b : dle a b -> dle b a -> a = b.
Proof. destruct a, b; cbn; try tauto. intros. f_equal. lia. Qed.

Lemma dle_total a b : dle a b \/ dle b a.
Proof. destruct a, b; cbn; try tauto. lia. Qed.

Lemma is_min_parabola_unique n F q m m' :
  is_min_parabola n F q m -> is_min_parabola n F q m' -> m = m'.
Proof.
  intros [H1 [p [Hp ->]]] [H2 [p' [Hp' ->]]].
  apply dle_antisym; [now apply H1|now apply H2].
Qed.

Lemma is_nearest_unique S i m m' : is_nearest S i m -> is_nearest S i m' -> m = m'.
Proof.
  destruct m as [d|], m' as [d'|]; cbn.
  - intros [[j [Hj <-]] H1] [[j' [Hj' <-]] H2]. f_equal.
    specialize (H1 _ Hj'). specialize (H2 _ Hj). lia.
  - intros [[j [Hj _]] _] H. now apply H in Hj.
  - intros H [[j [Hj _]] _]. now apply H in Hj.
  - easy.
Qed.

Lemma sqdist_nonneg i j : 0 <= sqdist i j.
Proof. destruct i as [[x y] z], j as [[x' y'] z']; unfold sqdist.
  pose proof (Z.square_nonneg (x - x')). pose proof (Z.square_nonneg (y - y')).
  pose proof (Z.square_nonneg (z - z')). lia.
Qed.

Lemma sqdist_zero i j : sqdist i j = 0 -> i = j.
Proof.
  destruct i as [[x y] z], j as [[x' y'] z']; unfold sqdist. intros H.
  pose proof (Z.square_nonneg (x - x')). pose proof (Z.square_nonneg (y - y')).
  pose proof (Z.square_nonneg (z - z')).
  assert (x - x' = 0) by nia. assert (y - y' = 0) by nia. assert (z - z' = 0) by nia.
  repeat f_equal; lia.
Qed.

Lemma sqdist_refl i : sqdist i i = 0.
Proof. destruct i as [[x y] z]; unfold sqdist. lia. Qed.

Lemma sqdist_sym i j : sqdist i j = sqdist j i.
Proof. destruct i as [[x y] z], j as [[x' y'] z']; unfold sqdist. ring. Qed.
