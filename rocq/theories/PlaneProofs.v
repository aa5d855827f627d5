(** Counting cells, edges and vertices of a connected set of cells of the plane. *)
From Coq Require Import ZArith List Lia Bool Permutation.
From Verif Require Import Util.
Import ListNotations.
Local Open Scope Z_scope.

(** ** Sums over lists *)

Fixpoint zsum {A} (f : A -> Z) (l : list A) : Z :=
  match l with [] => 0 | a :: t => f a + zsum f t end.

Lemma zsum_app {A} (f : A -> Z) l1 l2 : zsum f (l1 ++ l2) = zsum f l1 + zsum f l2.
Proof. induction l1 as [|a l1 IH]; cbn [zsum app]; lia. Qed.
Lemma zsum_add {A} (f g : A -> Z) l : zsum (fun a => f a + g a) l = zsum f l + zsum g l.
Proof. induction l as [|a l IH]; cbn [zsum]; lia. Qed.
Lemma zsum_mul {A} k (f : A -> Z) l : zsum (fun a => k * f a) l = k * zsum f l.
Proof. induction l as [|a l IH]; cbn [zsum]; lia. Qed.
Lemma zsum_ext {A} (f g : A -> Z) l : (forall a, In a l -> f a = g a) -> zsum f l = zsum g l.
Proof.
  induction l as [|a l IH]; intros H; cbn [zsum]; [easy|].
  rewrite IH by (intros; apply H; now right). rewrite H by now left. easy.
Qed.
Lemma zsum_zero {A} (f : A -> Z) l : (forall a, In a l -> f a = 0) -> zsum f l = 0.
Proof.
  induction l as [|a l IH]; intros H; cbn [zsum]; [easy|].
  rewrite IH by (intros; apply H; now right). rewrite H by now left. easy.
Qed.
Lemma zsum_nonneg {A} (f : A -> Z) l : (forall a, In a l -> 0 <= f a) -> 0 <= zsum f l.
Proof.
  induction l as [|a l IH]; intros H; cbn [zsum]; [lia|].
  specialize (IH (fun b B => H b (or_intror B))). specialize (H a (or_introl eq_refl)). lia.
Qed.
Lemma zsum_perm {A} (f : A -> Z) l l' : Permutation l l' -> zsum f l = zsum f l'.
Proof. induction 1; cbn [zsum]; lia. Qed.
Lemma zsum_filter {A} (f : A -> Z) p l : zsum f (filter p l) = zsum (fun a => if p a then f a else 0) l.
Proof. induction l as [|a l IH]; cbn [zsum filter]; [easy|]. destruct (p a); cbn [zsum]; lia. Qed.
Lemma zlen_filter {A} (p : A -> bool) l : zlen (filter p l) = zsum (fun a => Z.b2z (p a)) l.
Proof.
  induction l as [|a l IH]; [easy|]. cbn [zsum filter]. rewrite <- IH.
  destruct (p a); cbn [Z.b2z]; unfold zlen; cbn [length]; lia.
Qed.
Lemma zsum_swap {A B} (f : A -> B -> Z) l l' :
  zsum (fun a => zsum (f a) l') l = zsum (fun b => zsum (fun a => f a b) l) l'.
Proof.
  induction l as [|a l IH]; cbn [zsum].
  - symmetry. now apply zsum_zero.
  - rewrite IH. now rewrite <- zsum_add.
Qed.
Lemma zsum_map {A B} (f : B -> Z) (h : A -> B) l : zsum f (map h l) = zsum (fun a => f (h a)) l.
Proof. induction l as [|a l IH]; cbn [zsum map]; lia. Qed.
Lemma zsum_prod {A B} (f : A * B -> Z) l l' :
  zsum f (list_prod l l') = zsum (fun a => zsum (fun b => f (a, b)) l') l.
Proof.
  induction l as [|a l IH]; cbn [zsum list_prod]; [easy|]. rewrite zsum_app, zsum_map. lia.
Qed.

(** A sum with a single term that does not vanish. *)
Lemma zsum_single {A} (f : A -> Z) l a :
  NoDup l -> In a l -> (forall b, In b l -> b <> a -> f b = 0) -> zsum f l = f a.
Proof.
  induction l as [|b l IH]; intros ND I H; [destruct I|]. apply NoDup_cons_iff in ND. destruct ND as (N & ND).
  cbn [zsum]. destruct I as [->|I].
  - rewrite (zsum_zero f l); [lia|]. intros c C. apply H; [now right|]. congruence.
  - rewrite IH; [|easy|easy|intros c C; apply H; now right]. rewrite H; [lia|now left|congruence].
Qed.

Lemma zsum_shift_gen (f : Z -> Z) n a :
  zsum (fun x => f (x + 1)) (zseq a n) + f a = zsum f (zseq a n) + f (a + Z.of_nat n).
Proof.
  revert a; induction n as [|n IH]; intros a; cbn [zsum zseq].
  - replace (a + Z.of_nat 0) with a by lia. lia.
  - specialize (IH (a + 1)). replace (a + Z.of_nat (S n)) with (a + 1 + Z.of_nat n) by lia. lia.
Qed.

Lemma zsum_shift (f : Z -> Z) a b : a <= b -> f a = 0 -> f b = 0 ->
  zsum (fun x => f (x + 1)) (zrange a b) = zsum f (zrange a b).
Proof.
  intros L A B. unfold zrange. pose proof (zsum_shift_gen f (Z.to_nat (b - a)) a) as H.
  replace (a + Z.of_nat (Z.to_nat (b - a))) with b in H by lia. lia.
Qed.

(** ** A connected graph has at least as many edges as vertices but one *)

Section Tree.
Context {A : Type} (eq_dec : forall a b : A, {a = b} + {a <> b}).
Variable e : A -> A -> Z.
Hypothesis e_pos : forall a b, 0 <= e a b.
Hypothesis e_sym : forall a b, e a b = e b a.

Inductive grown : list A -> Prop :=
| grown_root r : grown [r]
| grown_add v u l : grown l -> In u l -> 1 <= e v u -> grown (v :: l).

Lemma zsum_ge (f : A -> Z) l u : (forall a, 0 <= f a) -> In u l -> f u <= zsum f l.
Proof using.
  intros P. induction l as [|a l IH]; intros I; [destruct I|]. cbn [zsum].
  pose proof (zsum_nonneg f l (fun b _ => P b)). destruct I as [->|I]; [lia|].
  specialize (IH I). specialize (P a). lia.
Qed.

Lemma grown_edges l : grown l -> 2 * (zlen l - 1) <= zsum (fun a => zsum (e a) l) l.
Proof using e_pos e_sym.
  induction 1 as [r|v u l G IH I E].
  - cbn. specialize (e_pos r r). lia.
  - cbn [zsum]. rewrite zsum_add. pose proof (zsum_ge (e v) l u (e_pos v) I) as L.
    rewrite (zsum_ext (fun a => e a v) (e v) l) by (intros; apply e_sym).
    specialize (e_pos v v). unfold zlen in *. cbn [length]. lia.
Qed.

Inductive reach (X : A -> Prop) : A -> A -> Prop :=
| reach_here a : X a -> reach X a a
| reach_step a b c : reach X a b -> 1 <= e b c -> X c -> reach X a c.

Lemma reach_trans X a b c : reach X a b -> reach X b c -> reach X a c.
Proof using. intros H1 H2. revert a H1. induction H2; intros; eauto using reach_step. Qed.
Lemma reach_ends X a b : reach X a b -> X a /\ X b.
Proof using. induction 1; tauto. Qed.
Lemma reach_sym X a b : reach X a b -> reach X b a.
Proof using e_sym.
  induction 1 as [a Ha|a b c H IH E Hc]; [now constructor|].
  apply (reach_trans X c b a); [|exact IH].
  eapply reach_step; [constructor; exact Hc|rewrite e_sym; exact E|apply (reach_ends X a b H)].
Qed.

Lemma reach_leaves X a b l : reach X a b -> In a l -> ~ In b l ->
  exists u w, In u l /\ ~ In w l /\ X w /\ 1 <= e u w.
Proof using eq_dec.
  induction 1 as [a Ha|a b c H IH E Hc]; intros I N; [easy|].
  destruct (in_dec eq_dec b l) as [B|B]; [exists b, c; auto|auto].
Qed.

Lemma grow K r n :
  NoDup K -> (forall x, In x K -> reach (fun y => In y K) r x) -> In r K -> (n < length K)%nat ->
  exists l, grown l /\ NoDup l /\ incl l K /\ In r l /\ length l = S n.
Proof using eq_dec e_sym.
  intros ND R Ir. induction n as [|n IH]; intros L.
  - exists [r]. split; [constructor|]. split; [repeat constructor; easy|]. split; [|now split; [left|]].
    intros a [->|[]]. easy.
  - destruct IH as (l & G & NDl & IC & Il & Len); [lia|].
    assert (exists x, In x K /\ ~ In x l) as (x & Kx & Nx).
    { destruct (Exists_dec (fun x => ~ In x l) K) as [X|X].
      - intros x. destruct (in_dec eq_dec x l); [right; tauto|now left].
      - now apply Exists_exists in X.
      - exfalso. assert (incl K l) as IK.
        { intros x Kx. destruct (in_dec eq_dec x l); [easy|]. elim X. apply Exists_exists. now exists x. }
        pose proof (NoDup_incl_length ND IK). lia. }
    destruct (reach_leaves _ r x l (R x Kx) Il Nx) as (u & w & U & W & Kw & E).
    exists (w :: l). split; [econstructor; [exact G|exact U|now rewrite e_sym]|].
    split; [now constructor|]. split; [intros a [->|I]; auto|]. split; [now right|]. cbn. lia.
Qed.

Lemma connected_edges K r :
  NoDup K -> (forall x, In x K -> reach (fun y => In y K) r x) -> In r K ->
  2 * (zlen K - 1) <= zsum (fun a => zsum (e a) K) K.
Proof using eq_dec e_pos e_sym.
  intros ND R Ir. destruct (grow K r (length K - 1) ND R Ir) as (l & G & NDl & IC & _ & Len).
  { destruct K; [destruct Ir|cbn; lia]. }
  assert (Permutation l K) as P.
  { apply NoDup_Permutation_bis; [easy| |easy]. destruct K; [destruct Ir|cbn in *; lia]. }
  pose proof (grown_edges l G) as H. rewrite (zsum_perm _ _ _ P) in H.
  rewrite (zsum_ext _ (fun a => zsum (e a) K) K) in H by (intros; now apply zsum_perm).
  replace (zlen K) with (zlen l); [easy|]. unfold zlen. now rewrite (Permutation_length P).
Qed.
End Tree.

Lemma nodup_app {A} (l l' : list A) : NoDup l -> NoDup l' -> (forall a, In a l -> ~ In a l') -> NoDup (l ++ l').
Proof.
  induction 1 as [|a l I N IH]; intros N' D; [easy|]. cbn. constructor.
  - rewrite in_app_iff. intros [H|H]; [easy|]. apply (D a); [now left|easy].
  - apply IH; [easy|]. intros b B. apply D. now right.
Qed.
Lemma nodup_prod {A B} (l : list A) (l' : list B) : NoDup l -> NoDup l' -> NoDup (list_prod l l').
Proof.
  intros N N'. induction N as [|a l I N IH]; cbn [list_prod]; [constructor|]. apply nodup_app; [|easy|].
  - apply FinFun.Injective_map_NoDup; [|easy]. intros b c E. congruence.
  - intros [b c] H1 H2. apply in_map_iff in H1. destruct H1 as (d & [= <- <-] & _).
    apply in_prod_iff in H2. tauto.
Qed.

(** ** Cells of the plane *)

Section Plane.
Variables (nx ny : Z) (p : Z -> Z -> bool).
Hypothesis bounded : forall x y, p x y = true -> 0 <= x < nx /\ 0 <= y < ny.

Definition around_box : list (Z * Z) := list_prod (zrange (-2) (nx + 3)) (zrange (-2) (ny + 3)).
Definition sum2 (f : Z -> Z -> Z) : Z :=
  zsum (fun x => zsum (fun y => f x y) (zrange (-2) (ny + 3))) (zrange (-2) (nx + 3)).

Lemma sum2_add f g : sum2 (fun x y => f x y + g x y) = sum2 f + sum2 g.
Proof using. unfold sum2. rewrite <- zsum_add. apply zsum_ext. intros. apply zsum_add. Qed.
Lemma sum2_mul k f : sum2 (fun x y => k * f x y) = k * sum2 f.
Proof using. unfold sum2. rewrite <- zsum_mul. apply zsum_ext. intros. apply zsum_mul. Qed.
Lemma sum2_ext f g : (forall x y, f x y = g x y) -> sum2 f = sum2 g.
Proof using. intros H. unfold sum2. apply zsum_ext. intros. apply zsum_ext. intros. apply H. Qed.
Lemma sum2_box f : zsum (fun a => f (fst a) (snd a)) around_box = sum2 f.
Proof using. unfold around_box. now rewrite zsum_prod. Qed.

(** Functions that vanish away from the cells. *)
Definition near (f : Z -> Z -> Z) : Prop :=
  forall x y, f x y <> 0 -> -1 <= x <= nx + 1 /\ -1 <= y <= ny + 1.

Lemma near_out f x y : near f -> ~ (-1 <= x <= nx + 1 /\ -1 <= y <= ny + 1) -> f x y = 0.
Proof using. intros N H. destruct (Z.eq_dec (f x y) 0) as [|E]; [easy|]. apply N in E. tauto. Qed.

Hypothesis sizes : 0 <= nx /\ 0 <= ny.

Lemma shift_x f : near f -> sum2 (fun x y => f (x + 1) y) = sum2 f.
Proof using sizes.
  intros N. unfold sum2.
  rewrite (zsum_shift (fun x => zsum (fun y => f x y) (zrange (-2) (ny + 3)))); [easy|lia| |];
    apply zsum_zero; intros y _; apply near_out; try easy; lia.
Qed.
Lemma shift_y f : near f -> sum2 (fun x y => f x (y + 1)) = sum2 f.
Proof using sizes.
  intros N. unfold sum2. apply zsum_ext. intros x _.
  apply (zsum_shift (fun y => f x y)); [lia| |]; apply near_out; try easy; lia.
Qed.

Definition v (x y : Z) : Z := Z.b2z (p x y).

Lemma v_cases x y : v x y = 0 \/ (v x y = 1 /\ p x y = true).
Proof using. unfold v. destruct (p x y); auto. Qed.
Lemma near_v a b : -1 <= a <= 1 -> -1 <= b <= 1 -> near (fun x y => v (x + a) (y + b)).
Proof using bounded.
  intros A B x y H. destruct (v_cases (x + a) (y + b)) as [E|(_ & E)]; [easy|]. apply bounded in E. lia.
Qed.

(** Cells, adjacent pairs along each axis, and full squares of four. *)
Definition cells : Z := sum2 v.
Definition pairs_x : Z := sum2 (fun x y => v x y * v (x + 1) y).
Definition pairs_y : Z := sum2 (fun x y => v x y * v x (y + 1)).
Definition squares : Z := sum2 (fun x y => v x y * v (x + 1) y * v x (y + 1) * v (x + 1) (y + 1)).

(** Vertices with one, three, or two diagonal cells.  The cells around the vertex
    (x, y) are those with coordinates x - 1, x and y - 1, y. *)
Definition corner_sum (x y : Z) : Z := v (x - 1) (y - 1) + v x (y - 1) + v (x - 1) y + v x y.
Definition diagonal (x y : Z) : bool :=
  (p (x - 1) (y - 1) && p x y && negb (p x (y - 1)) && negb (p (x - 1) y))
  || (p x (y - 1) && p (x - 1) y && negb (p (x - 1) (y - 1)) && negb (p x y)).
Definition ones : Z := sum2 (fun x y => Z.b2z (corner_sum x y =? 1)).
Definition threes : Z := sum2 (fun x y => Z.b2z (corner_sum x y =? 3)).
Definition diagonals : Z := sum2 (fun x y => Z.b2z (diagonal x y)).

Lemma near_mul f g : near f -> near (fun x y => f x y * g x y).
Proof using. intros N x y H. apply N. intros E. apply H. rewrite E. easy. Qed.

Lemma shift_xm f : near f -> near (fun x y => f (x - 1) y) -> sum2 (fun x y => f (x - 1) y) = sum2 f.
Proof using sizes.
  intros _ N. rewrite <- (shift_x (fun x y => f (x - 1) y) N). apply sum2_ext. intros x y. f_equal. lia.
Qed.
Lemma shift_ym f : near f -> near (fun x y => f x (y - 1)) -> sum2 (fun x y => f x (y - 1)) = sum2 f.
Proof using sizes.
  intros _ N. rewrite <- (shift_y (fun x y => f x (y - 1)) N). apply sum2_ext. intros x y. f_equal. lia.
Qed.

(** *** The identity at one vertex, summed *)

Lemma vertex_identity x y :
  Z.b2z (corner_sum x y =? 1) - Z.b2z (corner_sum x y =? 3) + 2 * Z.b2z (diagonal x y) =
  corner_sum x y
  - 2 * (v (x - 1) (y - 1) * v x (y - 1) + v (x - 1) y * v x y
         + v (x - 1) (y - 1) * v (x - 1) y + v x (y - 1) * v x y)
  + 4 * (v (x - 1) (y - 1) * v x (y - 1) * v (x - 1) y * v x y).
Proof using.
  unfold corner_sum, diagonal, v.
  destruct (p (x - 1) (y - 1)), (p x (y - 1)), (p (x - 1) y), (p x y); reflexivity.
Qed.

Lemma near_ext f g : (forall x y, f x y = g x y) -> near f -> near g.
Proof using. intros E N x y H. apply N. now rewrite E. Qed.
Lemma near00 : near v.
Proof using bounded. apply (near_ext (fun x y => v (x + 0) (y + 0))); [intros; f_equal; lia|]. apply near_v; lia. Qed.

Lemma near_shift f a b :
  (forall x y, f x y <> 0 -> p x y = true) -> -1 <= a <= 1 -> -1 <= b <= 1 ->
  near (fun x y => f (x + a) (y + b)).
Proof using bounded. intros H A B x y E. apply H in E. apply bounded in E. lia. Qed.

Lemma sum2_shift f a b :
  (forall x y, f x y <> 0 -> p x y = true) -> -1 <= a <= 1 -> -1 <= b <= 1 ->
  sum2 (fun x y => f (x + a) (y + b)) = sum2 f.
Proof using bounded sizes.
  intros H A B.
  assert (N : forall a b, -1 <= a <= 1 -> -1 <= b <= 1 -> near (fun x y => f (x + a) (y + b)))
    by (intros; now apply near_shift).
  assert (X : forall b, -1 <= b <= 1 -> sum2 (fun x y => f (x + a) (y + b)) = sum2 (fun x y => f x (y + b))).
  { clear b B. intros b B. assert (a = -1 \/ a = 0 \/ a = 1) as [->|[->| ->]] by lia.
    - rewrite <- (shift_x (fun x y => f (x + -1) (y + b))) by (apply N; lia).
      apply sum2_ext. intros x y. f_equal; lia.
    - apply sum2_ext. intros x y. f_equal; lia.
    - apply (shift_x (fun x y => f x (y + b))). apply (near_ext (fun x y => f (x + 0) (y + b))).
      + intros; f_equal; lia.
      + apply N; lia. }
  rewrite X by easy. assert (b = -1 \/ b = 0 \/ b = 1) as [->|[->| ->]] by lia.
  - rewrite <- (shift_y (fun x y => f x (y + -1))).
    + apply sum2_ext. intros x y. f_equal; lia.
    + apply (near_ext (fun x y => f (x + 0) (y + -1))); [intros; f_equal; lia|]. apply N; lia.
  - apply sum2_ext. intros x y. f_equal; lia.
  - apply (shift_y f). apply (near_ext (fun x y => f (x + 0) (y + 0))); [intros; f_equal; lia|]. apply N; lia.
Qed.

Lemma v_on f x y : v x y * f <> 0 -> p x y = true.
Proof using. unfold v. destruct (p x y); [easy|]. cbn [Z.b2z]. lia. Qed.

Lemma euler_corners :
  ones - threes + 2 * diagonals = 4 * (cells - pairs_x - pairs_y + squares).
Proof using bounded sizes.
  unfold ones, threes, diagonals.
  transitivity (sum2 (fun x y => Z.b2z (corner_sum x y =? 1) + (-1) * Z.b2z (corner_sum x y =? 3)
                                 + 2 * Z.b2z (diagonal x y))).
  { rewrite !sum2_add, !sum2_mul. lia. }
  set (F := fun x y => v x y * 1).
  set (PX := fun x y => v x y * v (x + 1) y).
  set (PY := fun x y => v x y * v x (y + 1)).
  set (SQ := fun x y => v x y * (v (x + 1) y * v x (y + 1) * v (x + 1) (y + 1))).
  assert (SF : forall a b, -1 <= a <= 1 -> -1 <= b <= 1 -> sum2 (fun x y => F (x + a) (y + b)) = cells).
  { intros a b A B. rewrite sum2_shift; [|intros x y; apply v_on|easy|easy].
    apply sum2_ext. intros. unfold F. lia. }
  assert (SX : forall a b, -1 <= a <= 1 -> -1 <= b <= 1 -> sum2 (fun x y => PX (x + a) (y + b)) = pairs_x).
  { intros a b A B. rewrite sum2_shift; [reflexivity|intros x y; apply v_on|easy|easy]. }
  assert (SY : forall a b, -1 <= a <= 1 -> -1 <= b <= 1 -> sum2 (fun x y => PY (x + a) (y + b)) = pairs_y).
  { intros a b A B. rewrite sum2_shift; [reflexivity|intros x y; apply v_on|easy|easy]. }
  assert (SS : forall a b, -1 <= a <= 1 -> -1 <= b <= 1 -> sum2 (fun x y => SQ (x + a) (y + b)) = squares).
  { intros a b A B. rewrite sum2_shift; [|intros x y; apply v_on|easy|easy].
    apply sum2_ext. intros. unfold SQ. lia. }
  transitivity (sum2 (fun x y =>
    (F (x + -1) (y + -1) + F (x + 0) (y + -1) + F (x + -1) (y + 0) + F (x + 0) (y + 0))
    + (-2) * (PX (x + -1) (y + -1) + PX (x + -1) (y + 0) + PY (x + -1) (y + -1) + PY (x + 0) (y + -1))
    + 4 * SQ (x + -1) (y + -1))).
  { apply sum2_ext. intros x y. pose proof (vertex_identity x y) as H. unfold F, PX, PY, SQ.
    replace (x + -1 + 1) with x by lia. replace (y + -1 + 1) with y by lia.
    replace (x + -1) with (x - 1) by lia. replace (y + -1) with (y - 1) by lia.
    replace (x + 0) with x by lia. replace (y + 0) with y by lia.
    unfold corner_sum in *. lia. }
  rewrite !sum2_add, !sum2_mul, !sum2_add, !SF, !SX, !SY, !SS by lia. lia.
Qed.

(** *** Connected sets *)

Inductive linked : Z * Z -> Z * Z -> Prop :=
| linked_here x y : p x y = true -> linked (x, y) (x, y)
| linked_step u x y x' y' : linked u (x, y) -> Z.abs (x - x') + Z.abs (y - y') = 1 ->
    p x' y' = true -> linked u (x', y').

Definition K : list (Z * Z) := filter (fun a => p (fst a) (snd a)) around_box.

Lemma in_K a : In a K <-> p (fst a) (snd a) = true.
Proof using bounded.
  clear sizes. unfold K. rewrite filter_In. destruct a as [x y]. cbn [fst snd]. split; [tauto|].
  intros H. split; [|easy]. apply bounded in H. unfold around_box. apply in_prod; apply in_zrange; lia.
Qed.
Lemma nodup_K : NoDup K.
Proof using. apply NoDup_filter, nodup_prod; apply NoDup_zrange. Qed.

(** Edges kept: all in direction y; in direction x those that are not the upper side of
    a full square. *)
Definition kept (x y : Z) : bool := negb (p x (y - 1) && p (x + 1) (y - 1)).
Definition edge_x (a b : Z * Z) : Z :=
  Z.b2z ((fst b =? fst a + 1) && (snd b =? snd a) && kept (fst a) (snd a)).
Definition edge_y (a b : Z * Z) : Z := Z.b2z ((fst b =? fst a) && (snd b =? snd a + 1)).
Definition edge (a b : Z * Z) : Z := edge_x a b + edge_x b a + edge_y a b + edge_y b a.

Lemma b2z_nonneg b : 0 <= Z.b2z b.
Proof using. destruct b; cbn; lia. Qed.
Lemma edge_pos a b : 0 <= edge a b.
Proof using. unfold edge, edge_x, edge_y. repeat apply Z.add_nonneg_nonneg; apply b2z_nonneg. Qed.
Lemma edge_sym a b : edge a b = edge b a.
Proof using. unfold edge. lia. Qed.

Lemma edge_x_1 x y : kept x y = true -> 1 <= edge (x, y) (x + 1, y).
Proof using.
  intros H. unfold edge. assert (edge_x (x, y) (x + 1, y) = 1).
  { unfold edge_x. cbn [fst snd]. now rewrite !Z.eqb_refl, H. }
  pose proof (b2z_nonneg (kept x y)). unfold edge_x, edge_y in *.
  repeat match goal with |- context [Z.b2z ?b] => lazymatch goal with H : 0 <= Z.b2z b |- _ => fail | _ => pose proof (b2z_nonneg b) end end.
  lia.
Qed.
Lemma edge_y_1 x y : 1 <= edge (x, y) (x, y + 1).
Proof using.
  unfold edge. assert (edge_y (x, y) (x, y + 1) = 1).
  { unfold edge_y. cbn [fst snd]. now rewrite !Z.eqb_refl. }
  unfold edge_x, edge_y in *.
  repeat match goal with |- context [Z.b2z ?b] => lazymatch goal with H : 0 <= Z.b2z b |- _ => fail | _ => pose proof (b2z_nonneg b) end end.
  lia.
Qed.

Notation P := (fun a => In a K).
Lemma reach_y x y : p x y = true -> p x (y + 1) = true -> reach edge P (x, y) (x, y + 1).
Proof using bounded.
  intros A B. eapply reach_step; [apply reach_here; now apply in_K|apply edge_y_1|now apply in_K].
Qed.
Lemma reach_x n x y : (Z.to_nat y <= n)%nat -> p x y = true -> p (x + 1) y = true ->
  reach edge P (x, y) (x + 1, y).
Proof using bounded sizes.
  revert y; induction n as [|n IH]; intros y L A B;
    destruct (kept x y) eqn:E;
    try (eapply reach_step; [apply reach_here; now apply in_K|now apply edge_x_1|now apply in_K]);
    unfold kept in E; apply negb_false_iff, andb_true_iff in E; destruct E as (E1 & E2);
    pose proof (bounded _ _ E1) as (_ & Hy); [lia|].
  assert (IHy := IH (y - 1) ltac:(lia) E1 E2).
  apply (reach_trans edge P (x, y) (x, y - 1)).
  - apply reach_sym; [apply edge_sym|]. pose proof (reach_y x (y - 1)) as R.
    replace (y - 1 + 1) with y in R by lia. auto.
  - apply (reach_trans edge P (x, y - 1) (x + 1, y - 1)); [exact IHy|].
    pose proof (reach_y (x + 1) (y - 1)) as R. replace (y - 1 + 1) with y in R by lia. auto.
Qed.

Lemma linked_reach u w : linked u w -> reach edge P u w.
Proof using bounded sizes.
  induction 1 as [x y H|u x y x' y' L IH D H]; [apply reach_here; now apply in_K|].
  apply (reach_trans edge P u (x, y)); [exact IH|].
  assert (Hp : p x y = true) by (apply (reach_ends edge P) in IH; apply (in_K (x, y)); tauto).
  assert ((x' = x + 1 /\ y' = y) \/ (x = x' + 1 /\ y' = y) \/ (x' = x /\ y' = y + 1) \/ (x' = x /\ y = y' + 1))
    as [(-> & ->)|[(-> & ->)|[(-> & ->)|(-> & ->)]]] by lia.
  - apply (reach_x (Z.to_nat y)); auto.
  - apply reach_sym; [apply edge_sym|]. apply (reach_x (Z.to_nat y)); auto.
  - apply reach_y; auto.
  - apply reach_sym; [apply edge_sym|]. apply reach_y; auto.
Qed.

Lemma sum_K f : zsum (fun a => f (fst a) (snd a)) K = sum2 (fun x y => v x y * f x y).
Proof using.
  unfold K. rewrite zsum_filter, <- sum2_box. apply zsum_ext. intros a _. unfold v.
  destruct (p (fst a) (snd a)); cbn [Z.b2z]; lia.
Qed.

Lemma sum_edge_x : zsum (fun a => zsum (edge_x a) K) K = pairs_x - squares.
Proof using bounded sizes.
  transitivity (zsum (fun a => (fun x y => v (x + 1) y * Z.b2z (kept x y)) (fst a) (snd a)) K).
  { apply zsum_ext. intros [x y] I. cbn [fst snd]. destruct (p (x + 1) y) eqn:E; unfold v; rewrite E; cbn [Z.b2z].
    - rewrite (zsum_single _ K (x + 1, y)).
      + unfold edge_x. cbn [fst snd]. rewrite !Z.eqb_refl. cbn [andb]. lia.
      + apply nodup_K.
      + now apply in_K.
      + intros [x' y'] _ N. unfold edge_x. cbn [fst snd].
        destruct (x' =? x + 1) eqn:Ex, (y' =? y) eqn:Ey; cbn [andb Z.b2z]; try easy.
        apply Z.eqb_eq in Ex, Ey. congruence.
    - apply zsum_zero. intros [x' y'] J. apply in_K in J. cbn [fst snd] in J. unfold edge_x. cbn [fst snd].
      destruct (x' =? x + 1) eqn:Ex, (y' =? y) eqn:Ey; cbn [andb Z.b2z]; try easy.
      apply Z.eqb_eq in Ex, Ey. congruence. }
  rewrite (sum_K (fun x y => v (x + 1) y * Z.b2z (kept x y))). set (SQ := fun x y => v x y * (v (x + 1) y * v x (y + 1) * v (x + 1) (y + 1))).
  transitivity (sum2 (fun x y => v x y * v (x + 1) y + (-1) * SQ (x + 0) (y + -1))).
  { apply sum2_ext. intros x y. unfold SQ, kept, v. replace (x + 0) with x by lia.
    replace (y + -1 + 1) with y by lia. replace (y + -1) with (y - 1) by lia.
    destruct (p x y), (p (x + 1) y), (p x (y - 1)), (p (x + 1) (y - 1)); reflexivity. }
  rewrite sum2_add, sum2_mul. rewrite (sum2_shift SQ) by (try lia; intros x y; apply v_on).
  unfold pairs_x, squares. replace (sum2 SQ) with (sum2 (fun x y => v x y * v (x + 1) y * v x (y + 1) * v (x + 1) (y + 1)));
    [lia|]. apply sum2_ext. intros. unfold SQ. lia.
Qed.

Lemma sum_edge_y : zsum (fun a => zsum (edge_y a) K) K = pairs_y.
Proof using bounded sizes.
  transitivity (zsum (fun a => (fun x y => v x (y + 1)) (fst a) (snd a)) K); [|exact (sum_K (fun x y => v x (y + 1)))].
  apply zsum_ext. intros [x y] I. cbn [fst snd]. destruct (p x (y + 1)) eqn:E; unfold v; rewrite E; cbn [Z.b2z].
  - rewrite (zsum_single _ K (x, y + 1)).
    + unfold edge_y. cbn [fst snd]. now rewrite !Z.eqb_refl.
    + apply nodup_K.
    + now apply in_K.
    + intros [x' y'] _ N. unfold edge_y. cbn [fst snd].
      destruct (x' =? x) eqn:Ex, (y' =? y + 1) eqn:Ey; cbn [andb Z.b2z]; try easy.
      apply Z.eqb_eq in Ex, Ey. congruence.
  - apply zsum_zero. intros [x' y'] J. apply in_K in J. cbn [fst snd] in J. unfold edge_y. cbn [fst snd].
    destruct (x' =? x) eqn:Ex, (y' =? y + 1) eqn:Ey; cbn [andb Z.b2z]; try easy.
    apply Z.eqb_eq in Ex, Ey. congruence.
Qed.

Lemma pair_eq_dec (a b : Z * Z) : {a = b} + {a <> b}.
Proof using. decide equality; apply Z.eq_dec. Qed.

Theorem euler_connected r :
  p (fst r) (snd r) = true -> (forall x y, p x y = true -> linked r (x, y)) ->
  cells - pairs_x - pairs_y + squares <= 1.
Proof using bounded sizes.
  intros Hr HL.
  pose proof (connected_edges pair_eq_dec edge edge_pos edge_sym K r nodup_K) as H.
  assert (E : zsum (fun a => zsum (edge a) K) K = 2 * (pairs_x - squares + pairs_y)).
  { rewrite (zsum_ext _ (fun a => zsum (edge_x a) K + zsum (fun b => edge_x b a) K + zsum (edge_y a) K
                                  + zsum (fun b => edge_y b a) K)).
    2:{ intros a _. unfold edge. now rewrite !zsum_add. }
    rewrite !zsum_add. rewrite <- (zsum_swap edge_x), <- (zsum_swap edge_y), sum_edge_x, sum_edge_y. lia. }
  rewrite E in H.
  assert (F : zlen K = cells).
  { unfold K. rewrite zlen_filter. unfold cells, v. now rewrite <- (sum2_box (fun x y => Z.b2z (p x y))). }
  rewrite F in H. enough (2 * (cells - 1) <= 2 * (pairs_x - squares + pairs_y)) by lia.
  apply H; [|now apply in_K]. intros [x y] I. apply linked_reach, HL. now apply in_K in I.
Qed.

End Plane.
